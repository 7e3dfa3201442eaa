(* EnvelopeFacts.v -- the beach line between two events, in the words of the properties. *)
From stdpp Require Import base list sets.
From Coq Require Import ZArith Reals Lra Lia Psatz.
From Verif Require Import Arith Geom Monad Tree Heapq State Sweep HeapqProofs EventOrder TreeProofs TreeOps TreeSearch Beach
  SweepBase Dcel SweepInv SweepTrans SweepSite SweepCircle SweepLoop Spec SweepFacts RArith GeomReal AngleReal EdgeReal Envelope EnvelopeEvents EnvelopeRow
  SweepReal SweepRealStep SweepRealLoop SweepRealFacts FinishFacts SpecVoronoi.
Local Open Scope R_scope.

Lemma rep_det {X} (h : list (node X)) p t t' : rep h p t -> rep h p t' -> rootid t = rootid t' -> t = t'.
Proof.
  revert p t'. induction t as [|l IHl n r IHr]; intros p [|l' n' r']; try done. intros ((x & X1 & _ & X2 & X3) & X4 & X5) ((y & Y1 & _ & Y2 & Y3) & Y4 & Y5) [= <-].
  assert (y = x) as -> by congruence. f_equal; [eapply IHl|eapply IHr]; eauto; congruence.
Qed.
Lemma beach_det (A : Arith) s L L' : beach A s L -> beach A s L' -> L = L'.
Proof. intros (t & H1 & H2 & _ & ->) (t' & H1' & H2' & _ & ->). f_equal. eapply rep_det; eauto. congruence. Qed.

Section EF.
Context (pts corners : list (pt RArith)) (ND : NoDup pts).
Notation A := RArith.
Notation St := (state A).
Implicit Types s : St.
Notation k0 := (length corners).
Local Notation PT p := (@lookup nat (pt RArith) (list (pt RArith)) (@list_lookup (pt RArith)) p pts) (only parsing).
Notation ls := (ls pts).
Notation Hs := (Hs pts).
Notation TO := RArith_order.
Notation MO := (RArith_mid (fst <$> pts)).
Notation CC := RArith_circle.
Local Arguments lv : simpl never.
Local Arguments SweepReal.ls : simpl never.

Lemma pt_eq p (P P' : rpt) : (PT p) = Some P -> (PT p) = Some P' -> P = P'.
Proof. congruence. Qed.
(* a beach line of a reachable state *)
Lemma beach_reach s idx hist L n : runs A pts corners s idx hist -> beach A s L -> n ∈ L ->
  exists t dn, reach A pts corners s t dn hist /\ L = inord t /\ dn = handled_sites A hist.
Proof.
  intros HR HB Hn. destruct (runs_reach A pts corners TO MO CC _ _ _ HR) as [(Hok & _ & _)|(t & dn & HR' & _)].
  - pose proof (start_beach A pts corners s Hok) as HB'. rewrite (beach_det A s _ _ HB HB') in Hn. by apply elem_of_nil in Hn.
  - exists t, dn. pose proof (reach_facts A pts corners TO _ _ _ _ HR') as F. split; [done|]. split.
    + eapply beach_det; [exact HB|]. eapply inv_beach, F.
    + apply (f_hist _ _ _ _ _ _ _ F).
Qed.
Lemma between_order s l : between_events s l -> (forall l0, s_sweep s = Some l0 -> l <= l0) /\ (forall k e, pending A s k e -> i_y (cev_item A k e) <= l).
Proof. done. Qed.

(* the position of the sweep line is such a moment *)
Lemma between_now s idx hist l : runs A pts corners s idx hist -> hist <> [] -> s_sweep s = Some l -> between_events s l.
Proof.
  intros HR HN Hl. destruct (runs_reach A pts corners TO MO CC _ _ _ HR) as [(_ & _ & ->)|(t & dn & HR' & _)]; [done|].
  destruct (reach_geo pts corners ND _ _ _ _ HR') as (l' & Hsw & HB & _). assert (l' = l) as -> by congruence. split; [intros l0 E; replace l0 with l by congruence; apply Rle_refl|].
  intros k e HP. destruct (pending_live A s t dn _ k e (f_inv _ _ _ _ _ _ _ (reach_facts A pts corners TO _ _ _ _ HR')) HP) as (_ & i & Hi & ->). exact (HB _ Hi).
Qed.

Theorem beach_sorted s idx hist L l m L1 a L2 b L3 xa xb : runs A pts corners s idx hist -> beach A s L -> between_events s l ->
  L = L1 ++ a :: L2 ++ b :: L3 -> stands pts s l m a xa -> stands pts s l m b xb -> xa <= xb.
Proof.
  intros HR HB (H1 & H2) EL (p & q & P & Q & y & La & HP & HQ & GA) (p' & q' & P' & Q' & y' & Lb & HP' & HQ' & GB).
  destruct (beach_reach s idx hist L a HR HB) as (t & dn & HR' & -> & _); [rewrite EL; set_solver|].
  destruct (reach_sorted pts corners ND s t dn hist l HR' H1 H2 L1 a L2 b L3 p q p' q' EL La Lb) as (P0 & Q0 & P1 & Q1 & E1 & E2 & E3 & E4 & K1 & K2 & K3 & K4 & K5).
  assert (P0 = P) as -> by (eapply pt_eq; eassumption). assert (Q0 = Q) as -> by (eapply pt_eq; eassumption). assert (P1 = P') as -> by (eapply pt_eq; eassumption). assert (Q1 = Q') as -> by (eapply pt_eq; eassumption).
  destruct (gi_value P Q l m K1 K2) as (u & G1 & _). destruct (gi_value P' Q' l m K3 K4) as (u' & G2 & _).
  assert (xa = gi_x P Q l) as -> by congruence. assert (xb = gi_x P' Q' l) as -> by congruence. exact K5.
Qed.
(* every breakpoint stands somewhere *)
Theorem beach_stands s idx hist L l m b p q : runs A pts corners s idx hist -> beach A s L -> between_events s l -> b ∈ L -> label A s b = Some (p, q) -> exists x, stands pts s l m b x.
Proof.
  intros HR HB (H1 & H2) Hb La. destruct (beach_reach s idx hist L b HR HB Hb) as (t & dn & HR' & -> & _).
  pose proof (reach_order pts corners ND _ _ _ _ _ HR' H1 H2) as HO. pose proof (reach_facts A pts corners TO _ _ _ _ HR') as F.
  apply elem_of_list_split in Hb as (L1 & L2 & EL).
  destruct (label_pos pts corners s t dn L1 b L2 (f_inv _ _ _ _ _ _ _ F) (f_pts _ _ _ _ _ _ _ F) EL p q La) as (pre & suf & m1 & m2 & P & Q & _ & _ & HP & HQ & IP & IQ & _).
  assert (AB : forall X, X ∈ Hs dn -> l <= snd X). { intros X HX. destruct HO as [R|BO]; [rewrite (r_lev _ _ _ R _ HX); lra|by apply (b_above _ _ _ BO)]. }
  destruct (gi_value P Q l m (AB _ IP) (AB _ IQ)) as (u & G1 & _). exists (gi_x P Q l), p, q, P, Q, u. done.
Qed.
(* the sites that were handled are above the line *)
Theorem passed_above s idx hist l q Q : runs A pts corners s idx hist -> between_events s l -> passed hist q -> (PT q) = Some Q -> l <= snd Q.
Proof.
  intros HR (H1 & H2) Hq HQ. destruct (runs_reach A pts corners TO MO CC _ _ _ HR) as [(_ & _ & ->)|(t & dn & HR' & _)]; [by apply elem_of_nil in Hq|].
  pose proof (reach_order pts corners ND _ _ _ _ _ HR' H1 H2) as HO. pose proof (f_hist _ _ _ _ _ _ _ (reach_facts A pts corners TO _ _ _ _ HR')) as EH.
  assert (HX : Q ∈ Hs dn). { unfold SweepReal.Hs. apply elem_of_list_omap. exists q. split; [rewrite EH; exact Hq|done]. }
  destruct HO as [R|BO]; [right; symmetry; exact (r_lev _ _ _ R _ HX)|exact (b_above _ _ _ BO _ HX)].
Qed.

(* the arc at node n, of site p, between its neighbouring breakpoints, is part of the lower
   envelope: the circle around its points that touches the line contains no handled site *)
Theorem beach_envelope s idx hist L l m L1 n L2 p P x y q Q : runs A pts corners s idx hist -> beach A s L -> between_events s l ->
  L = L1 ++ n :: L2 -> site A s n = Some p -> (PT p) = Some P -> l < snd P ->
  (forall L0 b xb, L1 = L0 ++ [b] -> stands pts s l m b xb -> xb <= x) -> (forall b L0 xb, L2 = b :: L0 -> stands pts s l m b xb -> x <= xb) ->
  dist2 P (x, y) = (y - l) * (y - l) -> passed hist q -> (PT q) = Some Q -> dist2 P (x, y) <= dist2 Q (x, y).
Proof.
  intros HR HB HBt EL Sn HP Hl HL1 HL2 Hy Hq HQ. pose proof HBt as (H1 & H2).
  assert (Hn : n ∈ L) by (rewrite EL; set_solver).
  destruct (beach_reach s idx hist L n HR HB Hn) as (t & dn & HR' & -> & EH).
  pose proof (reach_order pts corners ND _ _ _ _ _ HR' H1 H2) as HO. pose proof (reach_facts A pts corners TO _ _ _ _ HR') as F.
  pose proof (f_inv _ _ _ _ _ _ _ F) as HI. pose proof (f_pts _ _ _ _ _ _ _ F) as HPs.
  destruct (st_site pts corners s t dn HI HPs n p Hn Sn) as (P' & X1 & X2). assert (P' = P) as -> by (eapply pt_eq; eassumption).
  assert (HX : Q ∈ Hs dn). { unfold SweepReal.Hs. apply elem_of_list_omap. exists q. split; [rewrite EH; exact Hq|done]. }
  destruct HO as [R|BO]; [exfalso; apply (Rlt_irrefl l); exact (eq_ind _ (fun u => l < u) Hl _ (r_lev _ _ _ R _ X2))|].
  assert (Ey : y = para P l x).
  { apply (Rmult_eq_reg_l (2 * (snd P - l))); [|lra]. unfold para. destruct P as [a b]. unfold dist2 in Hy; cbn [fst snd] in *. 
    transitivity ((x - a) * (x - a) + b * b - l * l); [nra|]. field. lra. }
  assert (UN : under (ls s (inord t)) l (length (ls s L1)) P x).
  { pose proof (i_chain _ _ _ _ _ HI) as Hch. assert (EE : ls s (inord t) = ls s L1 ++ P :: ls s L2) by (rewrite EL, ls_app, (ls_site pts s n p P L2 Sn HP); done).
    split; [rewrite EE; by rewrite list_lookup_middle|]. split.
    - intros j b0 Ej Hb0. destruct L1 as [|b1 L1' _] using rev_ind; [done|]. rewrite EL, <- app_assoc in Hch. 
      assert (Sb : site A s b1 = None). { eapply (chain_gap A s L1' b1 n); [exact Hch|exact Sn]. }
      assert (EL' : inord t = L1' ++ b1 :: n :: L2) by (rewrite EL, <- app_assoc; done).
      destruct (st_bp pts corners s t dn HI HPs L1' b1 (n :: L2) EL' Sb) as (pre & m1 & m2 & suf & p1 & q1 & P1 & Q1 & E1 & E2 & HL' & G1 & G2 & G3 & G4 & G5 & G6).
      injection E2 as <- <-. assert (q1 = p) as -> by congruence. assert (Q1 = P) as -> by (eapply pt_eq; eassumption).
      assert (J : j = length (ls s pre)). { rewrite ls_app, (ls_none pts s b1 [] Sb) in Ej. rewrite E1, !ls_app, (ls_site pts s m1 p1 P1 [] G1 G3) in Ej. rewrite !app_length in Ej. change (ls s []) with (@nil (pt RArith)) in Ej. cbn [length] in Ej. lia. }
      rewrite G5, J, list_lookup_middle in Hb0 by done. injection Hb0 as <-.
      assert (HP1 : P1 ∈ Hs dn). { eapply (b_sub _ _ _ BO (length (ls s pre))). rewrite G5. by rewrite list_lookup_middle. }
      destruct (gi_value P1 P l m (b_above _ _ _ BO _ HP1) (b_above _ _ _ BO _ X2)) as (u & GV & _).
      apply (HL1 L1' b1); [done|]. exists p1, p, P1, P, u. done.
    - intros b0 Hb0. destruct L2 as [|b1 L2']; [rewrite EE, lookup_app_r in Hb0 by lia; rewrite <- Nat.add_1_l, Nat.add_sub in Hb0; done|]. rewrite EL in Hch.
      assert (Sb : site A s b1 = None). { eapply (chain_gap' A s L1 n b1); [exact Hch|exact Sn]. }
      assert (EL' : inord t = (L1 ++ [n]) ++ b1 :: L2') by (rewrite EL, <- app_assoc; done).
      destruct (st_bp pts corners s t dn HI HPs (L1 ++ [n]) b1 L2' EL' Sb) as (pre & m1 & m2 & suf & p1 & q1 & P1 & Q1 & E1 & E2 & HL' & G1 & G2 & G3 & G4 & G5 & G6).
      apply app_inj_tail in E1 as [<- <-]. assert (p1 = p) as -> by congruence. assert (P1 = P) as -> by (eapply pt_eq; eassumption).
      rewrite G5 in Hb0. replace (S (length (ls s L1))) with (length (ls s L1) + 1)%nat in Hb0 by lia. rewrite look_k in Hb0. injection Hb0 as <-.
      assert (HQ1 : Q1 ∈ Hs dn). { eapply (b_sub _ _ _ BO (length (ls s L1) + 1)). rewrite G5, look_k. done. }
      destruct (gi_value P Q1 l m (b_above _ _ _ BO _ X2) (b_above _ _ _ BO _ HQ1)) as (u & GV & _).
      apply (HL2 b1 L2'); [done|]. exists p, q1, P, Q1, u. done. }
  pose proof (b_low _ _ _ BO _ _ _ UN Hl Q HX) as HLow. rewrite <- Ey in HLow. unfold out in HLow. cbn [snd] in HLow. rewrite Hy. lra.
Qed.

(* the sites of the half-edges that leave a vertex are nearest to it *)
Theorem vertex_near s idx hist v z e p : runs A pts corners s idx hist -> located A s v z -> starts_at A s e v -> borders_site A s e = Some p -> SpecVoronoi.nearest pts p z.
Proof.
  intros HR Hz He Hp. pose proof He as (h & Hh & _). pose proof Hp as Hp'. unfold borders_site in Hp'. rewrite Hh in Hp'.
  destruct (d_pts _ _ _ _ _ _ _ _ (runs_dcel A pts corners TO MO CC _ _ _ HR) e h p Hh Hp') as [P HP].
  destruct (runs_corners A pts corners TO MO CC _ _ _ HR) as (_ & _ & _ & Hpx & _). rewrite (pxy_pts A pts s p Hpx) in HP.
  exists P. split; [exact HP|]. intros Q HQ. apply elem_of_list_lookup in HQ as [q HQ]. exact (vertex_nearest pts corners ND s idx hist v z e p P q Q HR Hz He Hp HP HQ).
Qed.

(* the run up to the last handled event *)
Lemma runs_last s idx hist i : runs A pts corners s idx (hist ++ [i]) ->
  exists s0 idx0 s1 s2 idx2, runs A pts corners s0 idx0 hist /\ queue_get A s0 = Val (s1, Some i) /\ step A i idx0 s1 = Val (s2, idx2) /\ runs A pts corners s2 idx2 (hist ++ [i]).
Proof.
  intros HR. remember (hist ++ [i]) as h eqn:Eh. induction HR as [s _|s idx h s1 j s2 idx2 HR IH Hq Hs]; [by destruct hist|].
  destruct (ignored A s j) eqn:Ej; [exact (IH Eh)|]. apply app_inj_tail in Eh as [-> ->]. exists s, idx, s1, s2, idx2. split; [done|]. split; [done|]. split; [done|].
  pose proof (runs_step A pts corners s idx hist s1 i s2 idx2 HR Hq Hs) as X. by rewrite Ej in X.
Qed.
End EF.
