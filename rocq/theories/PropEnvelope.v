(* PropEnvelope.v -- the sweep in exact arithmetic, for pairwise distinct sites: it raises
   nothing (C13), the sweep line only moves down (C20), vertices have empty circles (C21),
   breakpoints keep their order (C42) and the beach line is the lower envelope (C48). *)
From stdpp Require Import base list sets.
From Coq Require Import ZArith Reals Lra Lia.
From Verif Require Import Arith Geom Monad State Sweep TreeProofs Finish SweepBase Spec Heapq Tree Beach Dcel SweepInv SweepLoop SweepFacts FinishFacts RArith GeomReal SweepReal SweepRealLoop SweepRealFacts SweepTotal SpecVoronoi
  EnvelopeFacts PropSweep PropFinish PropVoronoi.
Local Open Scope R_scope.

(* ---------- C13 ---------- *)
(* for distinct sites, without rounding, no exception at all *)
Theorem C13_sweep_returns (xys corners : list (pt RArith)) fuel : NoDup xys -> (7 * length xys < fuel)%nat ->
  exists s, sweep RArith fuel xys (init_state RArith corners) = Val (s, tt).
Proof. intros ND. exact (sweep_total xys corners ND fuel). Qed.
Print Assumptions C13_sweep_returns.
Theorem C13_create_diagram_returns (xys : list (pt RArith)) (poly : polygon RArith) fuel : NoDup xys ->
  (1 <= length xys)%nat -> (2 <= length (pg_points RArith poly))%nat -> (7 * length xys < fuel)%nat ->
  Forall (fun z => pg_min_y RArith poly - Rabs (pg_max_y RArith poly) <= snd z) xys ->
  exists s, create_diagram RArith poly false fuel xys (init_state RArith (pg_points RArith poly)) = Val (s, tt).
Proof. intros ND. exact (create_total xys (pg_points RArith poly) ND poly fuel). Qed.
Print Assumptions C13_create_diagram_returns.
Definition square : polygon RArith := Build_polygon RArith [(-1, -1); (3, -1); (3, 3); (-1, 3)] (-1) (-1) 3 3 (1, 1).
Example C13_returns_case : NoDup tri /\ (1 <= length tri)%nat /\ (2 <= length (pg_points RArith square))%nat /\ (7 * length tri < 22)%nat /\
  Forall (fun z : pt RArith => pg_min_y RArith square - Rabs (pg_max_y RArith square) <= snd z) tri.
Proof.
  split; [exact tri_nodup|]. split; [simpl; lia|]. split; [simpl; lia|]. split; [simpl; lia|].
  assert (E : pg_min_y RArith square - Rabs (pg_max_y RArith square) <= -1) by (unfold square; cbn; pose proof (Rabs_pos 3); lra).
  repeat constructor; cbn [snd]; change (D RArith) with R in *; lra.
Qed.

(* ---------- C20 ---------- *)
(* of the positions that create_diagram's STEP_FINISHED messages show, none is above an earlier one *)
Theorem C20_sweep_line (xys : list (pt RArith)) (poly : polygon RArith) flag fuel s : NoDup xys ->
  (1 <= length xys)%nat -> (2 <= length (pg_points RArith poly))%nat ->
  create_diagram RArith poly flag fuel xys (init_state RArith (pg_points RArith poly)) = Val (s, tt) ->
  forall i j a b, (i < j)%nat -> seen RArith STEP_FINISHED (s_log s) !! i = Some (Some a) -> seen RArith STEP_FINISHED (s_log s) !! j = Some (Some b) -> b <= a.
Proof.
  intros ND H1 H2 HC. destruct (C33_messages RArith xys (pg_points RArith poly) poly flag fuel s (lawful_real xys) H1 H2 HC) as (s0 & idx & hist & log1 & log2 & HS & EL & E1 & _ & _ & HD).
  assert (E : seen RArith STEP_FINISHED (s_log s) = map (fun i => Some (i_y i)) hist).
  { rewrite EL. unfold seen in *. rewrite omap_app, E1. cbn. rewrite omap_app. cbn. rewrite app_nil_r.
    assert (omap (fun x : subject_id * message * option R => match x with (_, STEP_FINISHED, l) => Some l | _ => None end) log2 = []) as X.
    { clear EL. induction HD as [|[[? ms] ?] log2 Hx _ IH]; [done|]. cbn in Hx. subst ms. cbn. exact IH. }
    etransitivity; [|apply app_nil_r]. f_equal. exact X. }
  rewrite E. intros i j a b Hij Ha Hb. rewrite list_lookup_fmap in Ha, Hb.
  destruct (hist !! i) as [x|] eqn:Ex; [|done]. destruct (hist !! j) as [y|] eqn:Ey; [|done]. cbn in Ha, Hb. injection Ha as <-. injection Hb as <-.
  exact (hist_down xys (pg_points RArith poly) ND s0 idx hist (proj1 HS) i j x y Hij Ex Ey).
Qed.
Print Assumptions C20_sweep_line.
Example C20_case : exists s, create_diagram RArith square false 22 tri (init_state RArith (pg_points RArith square)) = Val (s, tt).
Proof. destruct C13_returns_case as (H1 & H2 & H3 & H4 & H5). exact (C13_create_diagram_returns tri square 22 H1 H2 H3 H4 H5). Qed.

(* ---------- C21 ---------- *)
(* at any moment of the sweep: no site is nearer to a vertex than the sites of its edges *)
Theorem C21_empty_circle (xys corners : list (pt RArith)) s index hist v z e p : NoDup xys -> runs RArith xys corners s index hist ->
  located RArith s v z -> starts_at RArith s e v -> borders_site RArith s e = Some p -> nearest xys p z.
Proof. intros ND. exact (vertex_near xys corners ND s index hist v z e p). Qed.
Print Assumptions C21_empty_circle.
Example C21_case : exists s index hist v e p, runs RArith tri [] s index hist /\ located RArith s v (1, 1) /\ starts_at RArith s e v /\ borders_site RArith s e = Some p.
Proof.
  destruct C46_C47_C55_case as (s & HS & _ & v & Hv & Hz). destruct (sweep_over _ _ _ _ tri_nodup HS) as (s0 & idx & hist & log & [HR _] & ->).
  destruct (C16_vertex_edges RArith tri [] s0 idx hist v (lawful_real tri) HR Hv) as (H3 & _ & HE).
  destruct (connected RArith s0 v) as [|e c]; [done|]. assert (He : starts_at RArith s0 e v) by (apply HE; left).
  pose proof He as (h & Hh & _). destruct (C14_twins RArith tri [] s0 idx hist e (lawful_real tri) HR) as (f & p & q & _ & _ & _ & Hp & _); [by eapply lookup_lt_Some|].
  exists s0, idx, hist, v, e, p. auto.
Qed.

(* ---------- C42 ---------- *)
(* Between two events, the breakpoints stand in the order of the beach line. *)
Theorem C42_order (xys corners : list (pt RArith)) s index hist L l max_y L1 a L2 b L3 xa xb : NoDup xys -> runs RArith xys corners s index hist ->
  beach RArith s L -> between_events s l -> L = L1 ++ a :: L2 ++ b :: L3 ->
  stands xys s l max_y a xa -> stands xys s l max_y b xb -> xa <= xb.
Proof. intros ND. exact (beach_sorted xys corners ND s index hist L l max_y L1 a L2 b L3 xa xb). Qed.
Print Assumptions C42_order.
(* each of them does stand somewhere, *)
Theorem C42_stands (xys corners : list (pt RArith)) s index hist L l max_y b p q : NoDup xys -> runs RArith xys corners s index hist ->
  beach RArith s L -> between_events s l -> b ∈ L -> label RArith s b = Some (p, q) -> exists x, stands xys s l max_y b x.
Proof. intros ND. exact (beach_stands xys corners ND s index hist L l max_y b p q). Qed.
Print Assumptions C42_stands.
(* and the moment right after an event is between two events *)
Theorem C42_now (xys corners : list (pt RArith)) s index hist l : NoDup xys -> runs RArith xys corners s index hist ->
  hist <> [] -> s_sweep s = Some l -> between_events s l.
Proof. intros ND. exact (between_now xys corners ND s index hist l). Qed.
Print Assumptions C42_now.

(* ---------- C48 ---------- *)
(* A point (x, y) of the arc of site p -- as far from p as from the sweep line, between the
   breakpoints beside the arc -- is at least as near to p as to any site already handled: the
   beach line is the lower envelope of the parabolas. *)
Theorem C48_lower_envelope (xys corners : list (pt RArith)) s index hist L l max_y L1 n L2 p (P : rpt) x y q (Q : rpt) : NoDup xys ->
  runs RArith xys corners s index hist -> beach RArith s L -> between_events s l ->
  L = L1 ++ n :: L2 -> site RArith s n = Some p -> xys !! p = Some P -> l < snd P ->
  (forall L0 b xb, L1 = L0 ++ [b] -> stands xys s l max_y b xb -> xb <= x) ->
  (forall b L0 xb, L2 = b :: L0 -> stands xys s l max_y b xb -> x <= xb) ->
  dist2 P (x, y) = (y - l) * (y - l) -> passed hist q -> xys !! q = Some Q -> dist2 P (x, y) <= dist2 Q (x, y).
Proof. intros ND. exact (beach_envelope xys corners ND s index hist L l max_y L1 n L2 p P x y q Q). Qed.
Print Assumptions C48_lower_envelope.

(* ---------- a case: two sites, one above the other ---------- *)
Definition duo : list (pt RArith) := [(0, 0); (0, 2)].
Lemma duo_nodup : NoDup duo.
Proof. repeat constructor; rewrite ?elem_of_cons, ?elem_of_nil; [intros [[= H]|[]]; lra|tauto]. Qed.
Lemma hist_length (hist : list (qitem RArith)) : handled_circles RArith hist = 0%nat -> length hist = length (handled_sites RArith hist) /\
  forall k i, hist !! k = Some i -> exists p, i_ev i = ESite p /\ handled_sites RArith hist !! k = Some p.
Proof.
  unfold handled_circles, handled_sites. induction hist as [|i hist IH]; [by split|]. cbn. destruct (i_ev i) as [p|k] eqn:Ei; cbn; [|done].
  intros H. destruct (IH H) as [H1 H2]. split; [by f_equal|]. intros [|k] j Hj; [injection Hj as <-; by exists p|]. apply (H2 k j Hj).
Qed.
(* after both site events the beach line has three arcs and two breakpoints *)
Example C42_C48_case : exists s index hist L n1 b1 n2 b2 n3 l, runs RArith duo [] s index hist /\ between_events s l /\ l <= 0 /\
  beach RArith s L /\ L = [n1; b1; n2; b2; n3] /\ site RArith s n1 = Some 1%nat /\ site RArith s n2 = Some 0%nat /\ site RArith s n3 = Some 1%nat /\
  label RArith s b1 = Some (1, 0)%nat /\ label RArith s b2 = Some (0, 1)%nat /\ passed hist 0 /\ passed hist 1.
Proof.
  destruct (sweep_total duo [] duo_nodup 15) as [s HS]; [simpl; lia|]. destruct (sweep_over _ _ _ _ duo_nodup HS) as (s0 & idx & hist & log & [HR Hq] & _). clear s HS.
  pose proof (lawful_real duo) as LW. destruct (C03_site_order RArith duo [] s0 idx hist LW (conj HR Hq)) as (order & EO & HP & _ & _ & HO & _).
  destruct (C17_edge_count RArith duo [] s0 idx hist LW (conj HR Hq)) as (_ & HC & _); [simpl; lia|].
  assert (s_vset s0 = []) as EV.
  { destruct (s_vset s0) as [|v vs] eqn:E; [done|]. exfalso. assert (Hv : v ∈ s_vset s0) by (rewrite E; left).
    destruct (d_conn _ _ _ _ _ _ _ _ (runs_dcel RArith duo [] RArith_order (RArith_mid (fst <$> duo)) RArith_circle _ _ _ HR) v Hv) as (w & _ & a & b & c & pa & pb & pc & x & y & r & e1 & e2 & e3 & _ & _ & N & _ & _ & _ & Ha & Hb & Hc & _).
    destruct (runs_corners RArith duo [] RArith_order (RArith_mid (fst <$> duo)) RArith_circle _ _ _ HR) as (_ & _ & _ & Hpx & _). rewrite (pxy_pts RArith duo s0 _ Hpx) in Ha. rewrite (pxy_pts RArith duo s0 _ Hpx) in Hb. rewrite (pxy_pts RArith duo s0 _ Hpx) in Hc.
    apply lookup_lt_Some in Ha, Hb, Hc. cbn in Ha, Hb, Hc. apply NoDup_cons in N as [N1 N]. apply NoDup_cons in N as [N2 _]. rewrite !elem_of_cons in *. lia. }
  rewrite EV in HC. destruct (hist_length hist (eq_sym HC)) as [HL HE].
  assert (order = [1; 0]%nat) as EO'.
  { cbn in HP. symmetry in HP. apply Permutation_length_2_inv in HP as [HP|HP]; [exfalso|done]. 
    specialize (HO 0%nat 1%nat 0%nat 1%nat (0, 0) (0, 2) ltac:(lia)). rewrite HP in HO. specialize (HO eq_refl eq_refl eq_refl eq_refl).
    cbn in HO. destruct HO as [H|[H _]]; [apply Rltb_true in H; lra|apply Reqb_true in H; lra]. }
  rewrite <- EO, EO' in HL, HE. destruct hist as [|i0 [|i1 [|]]]; try done. clear HL.
  destruct (HE 0%nat i0 eq_refl) as (p0 & E0 & [= <-]). destruct (HE 1%nat i1 eq_refl) as (p1 & E1 & [= <-]).
  destruct (runs_last duo [] s0 idx [i0] i1 HR) as (sa & ia & sb & s2 & idx2 & HRa & HQa & HSt & HR2).
  destruct (C11_site_event RArith duo [] sa ia [i0] sb i1 s2 idx2 0 LW HRa HQa E1 HSt) as (L & HB & _ & HL).
  destruct (C11_beach_line RArith duo [] sa ia [i0] LW HRa) as (L' & HB' & [[_ X]|[HA _]]); [done|]. rewrite (beach_det RArith sa L' L HB' HB) in HA. clear L' HB'.
  assert (L <> []) as HN by (by inversion HA).
  assert (exists m, L = [m]) as [m ->].
  { assert (exists n0, n0 ∈ L) as [n0 Hn0] by (destruct L as [|n0 ?]; [done|exists n0; left]). destruct (beach_reach duo [] sa ia [i0] L n0 HRa HB Hn0) as (t & dn & HRt & EL & ED).
    pose proof (reach_facts RArith duo [] RArith_order _ _ _ _ HRt) as F.
    assert (ONE : forall n p, n ∈ L -> site RArith sa n = Some p -> p = 1%nat).
    { intros n p Hn Hp. rewrite EL in Hn. destruct (st_site duo [] sa t dn (f_inv _ _ _ _ _ _ _ F) (f_pts _ _ _ _ _ _ _ F) n p Hn Hp) as (P & X1 & X2).
      rewrite ED in X2. unfold handled_sites in X2. cbn in X2. rewrite E0 in X2. unfold SweepReal.Hs in X2. cbn in X2. apply elem_of_list_singleton in X2 as ->.
      destruct p as [|[|p]]; [|done|done]. injection X1 as X1. lra. }
    destruct L as [|n [|b [|m L']]]; [done|by exists n|inversion HA|]. exfalso. inversion HA as [|? ? ? ? p q H1 H2 H3 H4 H5]; subst. apply H4.
    rewrite (ONE n p), (ONE m q); [done|right; right; left|done|left|done]. }
  destruct (HL HN) as (L1 & old & L2 & new & j & pj & pp & EL & HB2 & Hj & Hpj & Hpp & HAr & _ & HA2 & _).
  destruct L1 as [|? [|]]; [|done|done]. cbn [app] in EL, HB2, HA2. injection EL as -> <-. rewrite app_nil_r in HB2, HA2.
  assert (j = 1%nat) as ->.
  { inversion HA as [n p Hn|]; subst. destruct (beach_reach duo [] sa ia [i0] [old] old HRa HB ltac:(left)) as (t & dn & HRt & EL & ED).
    pose proof (reach_facts RArith duo [] RArith_order _ _ _ _ HRt) as F. assert (Ho : old ∈ inord t) by (rewrite <- EL; left).
    destruct (st_site duo [] sa t dn (f_inv _ _ _ _ _ _ _ F) (f_pts _ _ _ _ _ _ _ F) old j Ho Hj) as (P & X1 & X2).
    rewrite ED in X2. unfold handled_sites in X2. cbn in X2. rewrite E0 in X2. unfold SweepReal.Hs in X2. cbn in X2. apply elem_of_list_singleton in X2 as ->.
    destruct j as [|[|j]]; [|done|done]. injection X1 as X1. lra. }
  injection Hpj as <-. injection Hpp as <-.
  assert (NE : deqb RArith 0 2 = false) by (destruct (deqb RArith 0 2) eqn:X; [apply Reqb_true in X; lra|done]). cbn [snd fst] in HAr. rewrite NE in HAr. cbn [andb] in HAr.
  destruct (beach_reach duo [] s2 idx2 [i0; i1] new (hd 0%nat new) HR2 HB2) as (t & dn & HRt & _ & _); [destruct new; [done|left]|].
  destruct (reach_geo duo [] duo_nodup _ _ _ _ HRt) as (l & Hsw & _).
  assert (HBt : between_events s2 l) by (exact (C42_now duo [] s2 idx2 [i0; i1] l duo_nodup HR2 ltac:(done) Hsw)).
  assert (SB : forall b p q, label RArith s2 b = Some (p, q) -> site RArith s2 b = None).
  { intros b p q Hb. destruct (site RArith s2 b) as [x|] eqn:X; [|done]. apply site_label in X. congruence. }
  unfold arcs_on in HAr. inversion HA2 as [n p Hn|n1 b1 m1 L' p q H1 H2 H3 H4 H5]; subst new; cbn in HAr; [by rewrite Hn in HAr|].
  rewrite H1, (SB _ _ _ H2), H3 in HAr. 
  inversion H5 as [n p' Hn|n2 b2 m2 L'' p' q' H1' H2' H3' H4' H5']; subst; cbn in HAr; [done|]. rewrite (SB _ _ _ H2'), H3' in HAr.
  assert (p' = q) as -> by congruence.
  inversion H5' as [n p' Hn|n2 b3 m3 L3 p' q'' H1'' H2'' H3'' H4'' H5'']; subst; cbn in HAr; [|rewrite (SB _ _ _ H2''), H3'' in HAr; done].
  injection HAr as -> -> ->.
  assert (P0 : passed [i0; i1] 0) by (unfold passed, handled_sites; cbn; rewrite E0, E1; right; left).
  exists s2, idx2, [i0; i1], [n1; b1; m1; b2; m2], n1, b1, m1, b2, m2, l. split; [done|]. split; [done|]. split.
  { exact (passed_above duo [] duo_nodup s2 idx2 [i0; i1] l 0 (0, 0) HR2 HBt P0 eq_refl). }
  do 7 (split; [done|]). split; [exact P0|]. unfold passed, handled_sites; cbn; rewrite E0, E1; left.
Qed.

(* ---------- cases for the theorems of PropReal.v ---------- *)
Example C18_real_case : exists s index hist e t p q v z, runs RArith tri [] s index hist /\ twin RArith s e = Some t /\
  borders_site RArith s e = Some p /\ borders_site RArith s t = Some q /\ starts_at RArith s e v /\ v ∈ s_vset s /\ located RArith s v z.
Proof.
  destruct C46_C47_C55_case as (s & HS & _ & v & Hv & Hz). destruct (sweep_over _ _ _ _ tri_nodup HS) as (s0 & idx & hist & log & [HR _] & ->).
  destruct (C16_vertex_edges RArith tri [] s0 idx hist v (lawful_real tri) HR Hv) as (H3 & _ & HE).
  destruct (connected RArith s0 v) as [|e c]; [done|]. assert (He : starts_at RArith s0 e v) by (apply HE; left).
  pose proof He as (h & Hh & _). destruct (C14_twins RArith tri [] s0 idx hist e (lawful_real tri) HR) as (f & p & q & H1 & _ & _ & Hp & Hq & _); [by eapply lookup_lt_Some|].
  exists s0, idx, hist, e, f, p, q, v, (1, 1). auto 10.
Qed.
Lemma create_parts (A : Arith) poly flag fuel xys (s0 s' : state A) : create_diagram A poly flag fuel xys s0 = Val (s', tt) ->
  exists s s1 es, sweep A fuel xys s0 = Val (s, tt) /\ finish_edges A poly (s_edges s) s = Val (s1, es).
Proof.
  unfold create_diagram. intros HC'. apply CleanUp.bind_inv in HC' as (s & [] & HS & HC').
  apply CleanUp.bind_inv in HC' as (s1 & x & [= <- <-] & HC'). apply CleanUp.bind_inv in HC' as (s1 & es & HF & _). exists s, s1, es. auto.
Qed.
Example C23_real_case : exists s s1 es s', sweep RArith 22 tri (init_state RArith (pg_points RArith square)) = Val (s, tt) /\
  finish_edges RArith square (s_edges s) s = Val (s1, es) /\ (2 <= length (s_edges s))%nat /\
  create_diagram RArith square false 22 tri (init_state RArith (pg_points RArith square)) = Val (s', tt).
Proof.
  destruct C20_case as [s' HC]. destruct (create_parts RArith square false 22 tri _ s' HC) as (s & s1 & es & HS & HF).
  exists s, s1, es, s'. split; [done|]. split; [done|]. split; [|done].
  destruct (sweep_over _ _ _ _ tri_nodup HS) as (s0 & idx & hist & log & HW & E). 
  destruct (C17_edge_count RArith tri _ s0 idx hist (lawful_real tri) HW) as (H & _); [simpl; lia|].
  subst s. change (s_edges (set_log log s0)) with (s_edges s0). change (length tri) with 3%nat in H. lia.
Qed.
