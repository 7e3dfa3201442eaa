(* SweepRealFacts.v -- from the exact beach line to the statements of the properties: the
   sweep line only moves down, breakpoints stay in order, the circle of a vertex is empty. *)
From stdpp Require Import base list sets.
From Coq Require Import ZArith Reals Lra Lia Psatz.
From Verif Require Import Arith Geom Monad Tree Heapq State Sweep HeapqProofs EventOrder TreeProofs TreeOps TreeSearch Beach
  SweepBase Dcel SweepInv SweepTrans SweepSite SweepCircle SweepLoop Spec SweepFacts RArith GeomReal AngleReal EdgeReal Envelope EnvelopeEvents EnvelopeRow
  SweepReal SweepRealStep SweepRealLoop.
Local Open Scope R_scope.

Section RFacts.
Context (pts corners : list (pt RArith)) (ND : NoDup pts).
Notation A := RArith.
Notation St := (state A).
Implicit Types s : St.
Notation k0 := (length corners).
Local Notation PT p := (@lookup nat (pt RArith) (list (pt RArith)) (@list_lookup (pt RArith)) p pts) (only parsing).
Notation ls := (ls pts).
Notation Hs := (Hs pts).
Notation TO := RArith_order.
Notation MO := (RArith_mid (fst <$> pts)).
Notation CC := RArith_circle.
Local Arguments lv : simpl never.
Local Arguments SweepReal.ls : simpl never.

(* ---------- the order of the events ---------- *)
Lemma hist_down s idx hist : runs A pts corners s idx hist -> forall i j a b, (i < j)%nat -> hist !! i = Some a -> hist !! j = Some b -> i_y b <= i_y a.
Proof.
  intros HR. destruct (runs_reach A pts corners TO MO CC _ _ _ HR) as [(_ & _ & ->)|(t & dn & HR' & _)]; [intros ? ? ? ? _ X; discriminate X|].
  exact (reach_down pts corners ND _ _ _ _ HR').
Qed.

(* ---------- the sites around a vertex are nearest to it ---------- *)
Definition nearest s : Prop := forall v z e h p P q Q, located A s v z -> s_hedges s !! e = Some h -> h_origin h = OVx v -> h_inc h = Some p ->
  (PT p) = Some P -> (PT q) = Some Q -> dist2 P z <= dist2 Q z.

Lemma vert_half s t done e v w w' k : Inv A s t done k -> v ∈ s_vset s -> s_verts s !! v = Some w' -> w' = w -> e ∈ v_conn w -> exists h, s_hedges s !! e = Some h /\ h_origin h = OVx v.
Proof.
  clear. intros HI Hv Hw -> He. destruct (d_conn _ _ _ _ _ _ _ _ (i_dcel _ _ _ _ _ HI) v Hv) as (w1 & W1 & a & b & c & pa & pb & pc & x & y & r & e1 & e2 & e3 & C1 & _ & _ & C4 & C5 & C6 & _).
  assert (w1 = w) as -> by congruence. rewrite C1 in He. rewrite !elem_of_cons, elem_of_nil in He.
  destruct He as [->|[->|[->|[]]]]; [destruct C4 as (h' & ? & ? & O1 & O2 & _)|destruct C5 as (h' & ? & ? & O1 & O2 & _)|destruct C6 as (h' & ? & ? & O1 & O2 & _)]; eauto.
Qed.

Lemma reach_nearest s t done hist : reach A pts corners s t done hist -> nearest s.
Proof.
  induction 1 as [s it q p m s' Hst Hpop Hev HI Hm HF Hq Hvs Hve Hce
    |s t done hist it q k e HR IH Hpop Hev Hk Hv HI
    |s t done hist it q k e s' t' HR IH Hpop Hev Hit Hk Hv Hl HI0 HT HF HI
    |s t done hist it q p pi s' t' HR IH Hpop Hev Hit Hp Hpi HI0 HI1 HT HF HI].
  - intros v z e h p' P q' Q _ He Ho. change (s_hedges s' !! e = Some h) in He. destruct (d_vert _ _ _ _ _ _ _ _ (i_dcel _ _ _ _ _ HI) e h v He Ho) as [Hv _]. rewrite Hvs in Hv. by apply elem_of_nil in Hv.
  - exact IH.
  - intros v z e0 h p P q' Q (w & Hw & Hz) He Ho Hi HP HQ. change (s_verts s' !! v = Some w) in Hw. change (s_hedges s' !! e0 = Some h) in He.
    pose proof (reach_facts A pts corners TO _ _ _ _ HR) as F. pose proof (f_inv _ _ _ _ _ _ _ F) as HIs. pose proof (f_pts _ _ _ _ _ _ _ F) as HPs.
    pose proof HT as (L1 & n1 & b1 & b2 & n2 & L2 & u & a & b & c & ev & EL & _ & _ & Ha & Hb & Hc & _ & _ & _ & _ & _ & _ & _ & _ & _ & _ & _ & _ & _ & (conn & Ev) & Evs & _ & _ & Hold & Hnew & _).
    change (site A s n1 = Some a) in Ha. change (site A s (c_node e) = Some b) in Hb. change (site A s n2 = Some c) in Hc.
    change (s_verts (started A it (set_queue q s))) with (s_verts s) in *. change (s_vset (started A it (set_queue q s))) with (s_vset s) in *.
    change (s_hedges (started A it (set_queue q s))) with (s_hedges s) in *.
    destruct (d_vert _ _ _ _ _ _ _ _ (i_dcel _ _ _ _ _ HI) e0 h v He Ho) as (Hvin & w' & Hw' & Hcn). assert (w' = w) as -> by congruence.
    rewrite Ev in Hw. apply lookup_app_Some in Hw as [Hw|[Hle Hw]].
    + rewrite Evs in Hvin. apply elem_of_app in Hvin as [Hvin|Hvin].
      2:{ apply elem_of_list_singleton in Hvin as ->. apply lookup_lt_Some in Hw. lia. }
      destruct (vert_half s t done e0 v w w k0 HIs Hvin Hw eq_refl Hcn) as (h0 & Hh0 & Ho0).
      destruct (Hold e0 h0 Hh0) as (h1 & Hh1 & Hi1). assert (h1 = h) as -> by congruence.
      eapply (IH v z e0 h0 p P q' Q); eauto. { by exists w. } congruence.
    + destruct (v - length (s_verts s))%nat as [|j] eqn:Ej; [|done]. injection Hw as <-. simpl in Hz. injection Hz as <-.
      assert (v = length (s_verts s)) as -> by lia.
      destruct (reach_geo pts corners ND _ _ _ _ HR) as (l & Hsw & HB & HS).
      destruct (live_cw pts corners s t done HIs HPs k e Hl) as (i & Hi' & C).
      destruct HS as [R|(BO & H1 & H2)]; [by apply (row_no_cw _ _ _ _ _ _ R) in C|].
      pose proof (pop_beach pts corners s t done it q l HIs HPs Hpop HB BO H1) as BO'.
      assert (Ey : i_y it = c_y e - c_r e) by (rewrite Hit; done). rewrite <- Ey in C.
      assert (HE : forall Q', (exists q0, PT q0 = Some Q') -> 0 <= out Q' (i_y it) (c_x e, c_y e)).
      { intros Q' [q0 HQ']. assert (Hlt : (q0 < length pts)%nat) by (by eapply lookup_lt_Some).
        destruct (f_all _ _ _ _ _ _ _ F q0 Hlt) as [Hd|(jt & Hjt & Ejt)].
        - eapply (cw_empty _ _ _ _ _ BO' C). unfold SweepReal.Hs. apply elem_of_list_omap. eauto.
        - apply out_below.
          + destruct (pop_spec corners s t done it q HIs Hpop) as [HPm Hmin]. pose proof (event_le_y it jt (Hmin jt Hjt)) as Hle'.
            pose proof (i_queue _ _ _ _ _ HIs jt Hjt) as HQq. rewrite Ejt in HQq. destruct HQq as (_ & [_ Hxy] & _). rewrite (pxy_pts A pts s q0 HPs) in Hxy.
            pose proof (eq_trans (eq_sym Hxy) HQ') as X. injection X as <-. exact Hle'.
          + destruct C as (? & ? & ? & _ & _ & _ & _ & C & _). exact C. }
      assert (HZ : forall n p', n ∈ [n1; c_node e; n2] -> site A s n = Some p' -> forall P', PT p' = Some P' -> out P' (i_y it) (c_x e, c_y e) = 0).
      { intros n p' Hn Hs P' HP'. 
        assert (ELv : lv s (inord t) = lv s L1 ++ n1 :: c_node e :: n2 :: lv s L2).
        { pose proof (i_chain _ _ _ _ _ HIs) as Hch. rewrite EL in Hch.
          assert (Sb1 : site A s b1 = None). { eapply (chain_gap' A s L1 n1 b1); [exact Hch|exact Ha]. }
          assert (Sb2 : site A s b2 = None). { eapply (chain_gap A s (L1 ++ [n1; b1; c_node e]) b2 n2); [rewrite <- app_assoc; exact Hch|exact Hc]. }
          rewrite EL, lv_app, (lv_site _ _ _ _ Ha), (lv_none _ _ _ Sb1), (lv_site _ _ _ _ Hb), (lv_none _ _ _ Sb2), (lv_site _ _ _ _ Hc). done. }
        assert (i = length (lv s L1)) as ->.
        { cut (S i = S (length (lv s L1))); [lia|]. eapply NoDup_lookup; [apply (lv_nodup s), (i_nodup _ _ _ _ _ HIs)|exact Hi'|].
          rewrite ELv. replace (S (length (lv s L1))) with (length (lv s L1) + 1)%nat by lia. by rewrite look_k. }
        assert (LL : forall j, ls s (inord t) !! j = lv s (inord t) !! j ≫= spot pts s).
        { intros j. apply (ls_lv pts). intros n' p'' Hn' Hp''. eapply (st_site' pts corners s t done HIs HPs); eauto. }
        assert (SP : spot pts s n = Some P') by (unfold spot; rewrite Hs; exact HP').
        destruct C as (x1 & x2 & x3 & C1 & C2 & C3 & _ & _ & C4 & C5 & C6). rewrite LL, ELv in C1, C2, C3.
        rewrite list_lookup_middle in C1 by done. simpl in C1.
        replace (S (length (lv s L1))) with (length (lv s L1) + 1)%nat in C2 by lia. rewrite look_k in C2. simpl in C2.
        replace (S (S (length (lv s L1)))) with (length (lv s L1) + 2)%nat in C3 by lia. rewrite look_k in C3. simpl in C3.
        rewrite !elem_of_cons, elem_of_nil in Hn. destruct Hn as [->|[->|[->|[]]]].
        - assert (x1 = P') as <- by congruence. exact C4.
        - assert (x2 = P') as <- by congruence. exact C5.
        - assert (x3 = P') as <- by congruence. exact C6. }
      specialize (HE Q (ex_intro _ _ HQ)). assert (HZP : out P (i_y it) (c_x e, c_y e) = 0).
      { destruct (Hnew e0 h He Ho) as [E|[E|E]]; rewrite Hi in E; injection E as ->.
        - apply (HZ n1 a); [set_solver|exact Ha|exact HP].
        - apply (HZ (c_node e) b); [set_solver|exact Hb|exact HP].
        - apply (HZ n2 c); [set_solver|exact Hc|exact HP]. }
      unfold out in HE, HZP. change (D RArith) with R in *. lra.
  - intros v z e0 h p' P q' Q (w & Hw & Hz) He Ho Hi HP HQ. change (s_verts s' !! v = Some w) in Hw. change (s_hedges s' !! e0 = Some h) in He.
    pose proof (reach_facts A pts corners TO _ _ _ _ HR) as F. pose proof (f_inv _ _ _ _ _ _ _ F) as HIs.
    pose proof HT as (L1 & above & L2 & j & pj & mid & ev & _ & _ & _ & _ & _ & _ & _ & _ & _ & _ & _ & _ & _ & Ev & Evs & _ & _ & Hold & _).
    destruct (d_vert _ _ _ _ _ _ _ _ (i_dcel _ _ _ _ _ HI) e0 h v He Ho) as (Hvin & w' & Hw' & Hcn). assert (w' = w) as -> by congruence.
    rewrite Ev in Hw. rewrite Evs in Hvin.
    destruct (vert_half s t done e0 v w w k0 HIs Hvin Hw eq_refl Hcn) as (h0 & Hh0 & Ho0).
    pose proof (Hold e0 h0 Hh0) as Hh1. assert (h0 = h) as -> by congruence.
    eapply (IH v z e0 h p' P q' Q); eauto. by exists w.
Qed.

Lemma vertex_nearest s idx hist v z e p P q Q : runs A pts corners s idx hist -> located A s v z -> starts_at A s e v -> borders_site A s e = Some p ->
  (PT p) = Some P -> (PT q) = Some Q -> dist2 P z <= dist2 Q z.
Proof.
  intros HR Hz (h & Hh & Ho) Hp HP HQ. unfold borders_site, half in *. rewrite Hh in Hp. simpl in Hp.
  destruct (runs_reach A pts corners TO MO CC _ _ _ HR) as [(Hok & _ & _)|(t & dn & HR' & _)].
  - destruct Hok as (q0 & -> & _). done.
  - exact (reach_nearest _ _ _ _ HR' v z e h p P q Q Hz Hh Ho Hp HP HQ).
Qed.

(* ---------- the breakpoints from left to right ---------- *)
Lemma row_x (a b : rpt) m : snd a = snd b -> gi_x a b m = (fst a + fst b) / 2.
Proof. clear. intros E. unfold gi_x. destruct (Req_EM_T (snd a) (snd b)); [done|]. by destruct n. Qed.

Lemma label_pos s t done l1 b l2 : Inv A s t done k0 -> p_xy <$> s_points s = pts -> inord t = l1 ++ b :: l2 -> forall p q, label A s b = Some (p, q) ->
  exists pre suf m m' P Q, l1 = pre ++ [m] /\ l2 = m' :: suf /\ (PT p) = Some P /\ (PT q) = Some Q /\ P ∈ Hs done /\ Q ∈ Hs done /\
    site A s m = Some p /\ site A s m' = Some q /\ ls s (inord t) = ls s pre ++ P :: Q :: ls s suf /\ forall l, kf pts s l b = gi_x P Q l.
Proof.
  clear ND. intros HI HP E p q HL. assert (Hb : site A s b = None). { destruct (site A s b) as [x|] eqn:X; [|done]. apply site_label in X. congruence. }
  destruct (st_bp pts corners s t done HI HP l1 b l2 E Hb) as (pre & m & m' & suf & p' & q' & P & Q & E1 & E2 & HL' & H1 & H2 & H3 & H4 & H5 & H6).
  assert (p' = p /\ q' = q) as [-> ->] by (rewrite HL in HL'; by injection HL').
  exists pre, suf, m, m', P, Q. split; [done|]. split; [done|]. split; [done|]. split; [done|].
  destruct (st_site pts corners s t done HI HP m p) as (P' & X1 & X2); [rewrite E, E1, !elem_of_app; left; right; left|done|].
  destruct (st_site pts corners s t done HI HP m' q) as (Q' & Y1 & Y2); [rewrite E, E2, !elem_of_app; right; right; left|done|].
  assert (P' = P) as -> by congruence. assert (Q' = Q) as -> by congruence. auto 10.
Qed.

(* between two events: l is at most the sweep line and no pending event lies above l *)
Lemma reach_order s t done hist l : reach A pts corners s t done hist -> (forall l0, s_sweep s = Some l0 -> l <= l0) ->
  (forall k e, pending A s k e -> i_y (cev_item A k e) <= l) ->
  (row_ok l (Hs done) (ls s (inord t)) \/ beach_ok l (Hs done) (ls s (inord t))).
Proof.
  intros HR Hl HE. destruct (reach_geo pts corners ND _ _ _ _ HR) as (l0 & Hsw & HB & HS). specialize (Hl l0 Hsw).
  pose proof (reach_facts A pts corners TO _ _ _ _ HR) as F. pose proof (f_inv _ _ _ _ _ _ _ F) as HIs. pose proof (f_pts _ _ _ _ _ _ _ F) as HPs.
  destruct HS as [R|(BO & H1 & H2)].
  - destruct (Rle_lt_or_eq_dec _ _ Hl) as [Hlt|Heq]; [right; by apply (row_down l0)|left; by rewrite Heq].
  - right. eapply (step_down l0 l _ _ _ BO Hl H1). intros j z B Hj C.
    destruct (pend_item pts corners s t done HIs HPs j z B Hj C) as (k & e & _ & Hv & _ & <- & _). apply (HE k e Hv).
Qed.
Lemma reach_sorted s t done hist l : reach A pts corners s t done hist -> (forall l0, s_sweep s = Some l0 -> l <= l0) ->
  (forall k e, pending A s k e -> i_y (cev_item A k e) <= l) ->
  forall l1 a l2 b l3 p q p' q', inord t = l1 ++ a :: l2 ++ b :: l3 -> label A s a = Some (p, q) -> label A s b = Some (p', q') ->
  exists P Q P' Q', (PT p) = Some P /\ (PT q) = Some Q /\ (PT p') = Some P' /\ (PT q') = Some Q' /\ l <= snd P /\ l <= snd Q /\ l <= snd P' /\ l <= snd Q' /\
    gi_x P Q l <= gi_x P' Q' l.
Proof.
  intros HR Hl HE l1 a l2 b l3 p q p' q' EL La Lb. pose proof (reach_order _ _ _ _ _ HR Hl HE) as HO.
  pose proof (reach_facts A pts corners TO _ _ _ _ HR) as F. pose proof (f_inv _ _ _ _ _ _ _ F) as HIs. pose proof (f_pts _ _ _ _ _ _ _ F) as HPs.
  destruct (label_pos s t done l1 a _ HIs HPs EL p q La) as (pre & suf & m & m' & P & Q & E1 & E2 & HP & HQ & IP & IQ & Sm & Sm' & ELs & K1).
  assert (EL' : inord t = (l1 ++ a :: l2) ++ b :: l3) by (rewrite EL, <- app_assoc; done).
  destruct (label_pos s t done _ b _ HIs HPs EL' p' q' Lb) as (pre' & suf' & n & n' & P' & Q' & F1 & F2 & HP' & HQ' & IP' & IQ' & Sn & Sn' & ELs' & K2).
  exists P, Q, P', Q'. do 4 (split; [done|]).
  assert (AB : forall X, X ∈ Hs done -> l <= snd X). { intros X HX. destruct HO as [R|BO]; [rewrite (r_lev _ _ _ R _ HX); lra|by apply (b_above _ _ _ BO)]. }
  do 4 (split; [by apply AB|]). rewrite <- K1, <- K2.
  assert (Na : site A s a = None). { destruct (site A s a) as [x|] eqn:X; [|done]. apply site_label in X. congruence. }
  assert (Nb : site A s b = None). { destruct (site A s b) as [x|] eqn:X; [|done]. apply site_label in X. congruence. }
  destruct HO as [R|BO]; [|exact (st_sorted pts corners s t done HIs HPs l l1 a l2 b l3 BO EL Na Nb)].
  assert (RD : beach_ok (l - 1) (Hs done) (ls s (inord t))) by (apply (row_down l); [exact R|lra]).
  pose proof (st_sorted pts corners s t done HIs HPs (l - 1) l1 a l2 b l3 RD EL Na Nb) as H.
  rewrite !K1, !K2 in *. 
  rewrite (row_x P Q) in * by (rewrite (r_lev _ _ _ R _ IP), (r_lev _ _ _ R _ IQ); done).
  rewrite (row_x P' Q') in * by (rewrite (r_lev _ _ _ R _ IP'), (r_lev _ _ _ R _ IQ'); done). exact H.
Qed.
End RFacts.
