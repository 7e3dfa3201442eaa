(* SweepRealStep.v -- the events of the sweep in exact arithmetic keep the arcs the beach
   line of the handled sites, and the circle events that matter pending. *)
From stdpp Require Import base list.
From Coq Require Import ZArith Reals Lra Lia Psatz.
From Verif Require Import Arith Geom Monad Tree Heapq State Sweep HeapqProofs EventOrder TreeProofs TreeOps TreeSearch Beach
  SweepBase Dcel SweepInv SweepTrans SweepSite SweepCircle SweepLoop RArith GeomReal AngleReal EdgeReal Envelope EnvelopeEvents EnvelopeRow SweepReal.
Local Open Scope R_scope.

Lemma look_k {X} (l r : list X) i : (l ++ r) !! (length l + i)%nat = r !! i.
Proof. rewrite lookup_app_r by lia. f_equal. lia. Qed.

Section Step.
Context (pts corners : list (pt RArith)) (ND : NoDup pts).
Notation A := RArith.
Notation St := (state A).
Implicit Types s : St.
Notation k0 := (length corners).
Local Notation PT p := (@lookup nat (pt RArith) (list (pt RArith)) (@list_lookup (pt RArith)) p pts) (only parsing).
Notation ls := (ls pts).
Notation Hs := (Hs pts).
Local Arguments lv : simpl never.
Local Arguments SweepReal.ls : simpl never.

Lemma Hs_app done p P : (PT p) = Some P -> Hs (done ++ [p]) = Hs done ++ [P].
Proof. intros H. unfold SweepReal.Hs. rewrite omap_app. simpl. by rewrite H. Qed.
Lemma Hs_in done p P : p ∉ done -> (PT p) = Some P -> P ∉ Hs done.
Proof.
  intros Hp HP Hin. unfold SweepReal.Hs in Hin. apply elem_of_list_omap in Hin as (q & Hq & HQ). apply Hp.
  assert (p = q) as ->; [|done]. eapply NoDup_lookup; [exact ND|exact HP|exact HQ].
Qed.
Lemma sites_same s s' t done (L : list nat) : Inv A s t done k0 -> (forall n, n ∈ L -> n ∈ inord t) ->
  (forall n p, n ∈ L -> site A s n = Some p -> site A s' n = Some p) ->
  (forall n p, n ∈ L -> label A s n = Some p -> label A s' n = Some p) -> forall n, n ∈ L -> site A s' n = site A s n.
Proof.
  intros HI HL H1 H2 n Hn. destruct (site A s n) as [p|] eqn:E; [by apply H1|].
  destruct (inv_node _ _ _ _ _ _ HI (HL n Hn)) as [(p & Hs & _)|(p & q & _ & Hl & _)]; [congruence|].
  apply (H2 n) in Hl; [|done]. destruct (site A s' n) as [p'|] eqn:E'; [|done]. apply site_label in E'. congruence.
Qed.

(* ---------- circle events that are left out have no circle ---------- *)
Lemma no_conv s a b c Pa Pb Pc z B : p_xy <$> s_points s = pts -> (PT a) = Some Pa -> (PT b) = Some Pb -> (PT c) = Some Pc ->
  no_circle A s (a, b, c) -> conv Pa Pb Pc z B -> False.
Proof.
  intros HP Ha Hb Hc (pa & pb & pc & P3 & HC) HV. unfold points3 in P3. rewrite !(pxy_pts A pts s _ HP) in P3.
  rewrite Ha, Hb, Hc in P3. simpl in P3. injection P3 as -> -> ->. apply conv_circle in HV. 
  pose proof (eq_trans (eq_sym HC) HV) as X. discriminate X.
Qed.
Lemma same_place s a b c Pa Pb Pc z B k e e' : p_xy <$> s_points s = pts -> (PT a) = Some Pa -> (PT b) = Some Pb -> (PT c) = Some Pc ->
  is_circle_of A s (a, b, c) e' -> conv Pa Pb Pc z B ->
  event_eq A (i_y (cev_item A k e)) (i_x (cev_item A k e)) (i_y (cev_item A k e')) (i_x (cev_item A k e')) = true -> c_x e = fst z /\ c_y e - c_r e = B.
Proof.
  intros HP Ha Hb Hc (pa & pb & pc & P3 & HC) HV HE. unfold points3 in P3. rewrite !(pxy_pts A pts s _ HP) in P3.
  rewrite Ha, Hb, Hc in P3. simpl in P3. injection P3 as -> -> ->. apply conv_circle in HV.
  pose proof (eq_trans (eq_sym HC) HV) as X. injection X as X1 X2 X3.
  unfold event_eq, cev_item in HE. cbn [i_y i_x] in HE. apply andb_true_iff in HE as [H1 H2].
  apply Reqb_true in H1, H2. cbn [dsub RArith] in H1. change (D RArith) with R in *. split; [lra|]. lra.
Qed.

(* ---------- a site event below the first row ---------- *)
Section SiteEvent.
Context s (t : tree) (done : list nat) s' (t' : tree) (p : nat) (P : pt RArith).
Context (HI : Inv A s t done k0) (HP : p_xy <$> s_points s = pts) (HI' : Inv A s' t' (done ++ [p]) k0) (HP' : p_xy <$> s_points s' = pts).
Context (HT : site_trans A s t s' t' p P) (Hp : p ∉ done) (HPp : (PT p) = Some P).
Context (BO : beach_ok (snd P) (Hs done) (ls s (inord t))) (HQ1 : Q1 (Hs done) (ls s (inord t)) (pend s t)) (HQ2 : Q2 (Hs done) (ls s (inord t))).
Context (HF : forall j z, pend s t j -> cw (ls s (inord t)) j z (snd P) -> fst z <> fst P).

Lemma site_geo : beach_ok (snd P) (Hs (done ++ [p])) (ls s' (inord t')) /\ Q1 (Hs (done ++ [p])) (ls s' (inord t')) (pend s' t') /\ Q2 (Hs (done ++ [p])) (ls s' (inord t')).
Proof.
  destruct HT as (L1 & above & L2 & j & pj & mid & l & EL & Hab & Hpj & Hfd & EL' & _ & Hs1 & Hl1 & Hval & _ & _ & _ & HD & _).
  rewrite (pxy_pts A pts s j HP) in Hpj.
  assert (HU : under (ls s (inord t)) (snd P) (length (ls s L1)) pj (fst P)).
  { eapply (st_under pts corners s t done HI HP (snd P) (fst P) L1 above L2 j pj); eauto. }
  assert (ELs : ls s (inord t) = ls s L1 ++ pj :: ls s L2) by (rewrite EL, (ls_app pts), (ls_site pts _ _ _ _ _ Hab Hpj); done).
  assert (ELv : lv s (inord t) = lv s L1 ++ above :: lv s L2) by (rewrite EL, lv_app, (lv_site _ _ _ _ Hab); done).
  assert (Hin : forall n, n ∈ L1 ++ L2 -> n ∈ inord t). { intros n Hn. rewrite EL. apply elem_of_app in Hn. rewrite elem_of_app, elem_of_cons. tauto. }
  pose proof (sites_same s s' t done (L1 ++ L2) HI Hin Hs1 Hl1) as Hss.
  assert (EK : length (ls s L1) = length (lv s L1)).
  { apply (ls_len pts). intros n q Hn Hq. eapply (st_site' pts corners s t done HI HP); eauto. apply Hin. apply elem_of_app. by left. }
  rewrite ELs in BO, HU.
  pose proof (Hs_in done p P Hp HPp) as Hn. rewrite (Hs_app done p P HPp).
  pose proof (a_above (snd P) (Hs done) (ls s L1) (ls s L2) pj P BO eq_refl Hn HU) as La.
  assert (does_intersect A P pj = true) as EI.
  { unfold does_intersect. replace (deqb A (snd P) (snd pj)) with false; [done|]. symmetry. apply Reqb_false. intros E. revert La. rewrite E. apply Rlt_irrefl. }
  rewrite EI in HD. destruct HD as (a & b & c & d & e & -> & Sa & Sc & Se & HC).
  pose proof (i_chain _ _ _ _ _ HI') as Hch. rewrite EL' in Hch. cbn [app] in Hch.
  assert (Sb : site A s' b = None). { eapply (chain_gap' A s' L1 a b); [exact Hch|exact Sa]. }
  assert (Sd : site A s' d = None). { eapply (chain_gap A s' (L1 ++ [a; b; c]) d e); [rewrite <- app_assoc; exact Hch|exact Se]. }
  assert (X1 : forall n, n ∈ L1 -> site A s' n = site A s n) by (intros n Hn'; apply Hss, elem_of_app; by left).
  assert (X2 : forall n, n ∈ L2 -> site A s' n = site A s n) by (intros n Hn'; apply Hss, elem_of_app; by right).
  assert (ELs' : ls s' (inord t') = ls s L1 ++ pj :: P :: pj :: ls s L2).
  { rewrite EL'. cbn [app]. rewrite (ls_app pts), (ls_site pts _ _ _ _ _ Sa Hpj), (ls_none pts _ _ _ Sb), (ls_site pts _ _ _ _ _ Sc HPp), (ls_none pts _ _ _ Sd), (ls_site pts _ _ _ _ _ Se Hpj).
    by rewrite (ls_ext pts s s' L1 X1), (ls_ext pts s s' L2 X2). }
  assert (ELv' : lv s' (inord t') = lv s L1 ++ a :: c :: e :: lv s L2).
  { rewrite EL'. cbn [app]. rewrite lv_app, (lv_site _ _ _ _ Sa), (lv_none _ _ _ Sb), (lv_site _ _ _ _ Sc), (lv_none _ _ _ Sd), (lv_site _ _ _ _ Se).
    by rewrite (lv_ext s s' L1 X1), (lv_ext s s' L2 X2). }
  assert (BO' : beach_ok (snd P) (Hs done ++ [P]) (ls s' (inord t'))). { rewrite ELs'. exact (beach_site (snd P) (Hs done) (ls s L1) (ls s L2) pj P BO eq_refl Hn HU). }
  split; [exact BO'|].
  assert (HK : forall i, pend s t i -> S i <> length (ls s L1) -> pend s' t' (if decide (i < length (ls s L1)) then i else i + 2)%nat).
  { intros i (kk & ev & Hv & Hi) Hne. exists kk, ev. rewrite EK in *. rewrite ELv in Hi. split.
    - apply Hval. left. split; [done|]. intros E. apply Hne. eapply (NoDup_lookup (lv s (inord t))); [apply lv_nodup, (i_nodup _ _ _ _ _ HI)|rewrite ELv, Hi, E; reflexivity|].
      rewrite ELv. by rewrite list_lookup_middle.
    - rewrite ELv'. case_decide as Hd.
      + rewrite lookup_app_l in Hi by lia. rewrite lookup_app_l by lia. done.
      + rewrite lookup_app_r in Hi by lia. rewrite lookup_app_r by lia. replace (S i - length (lv s L1))%nat with (S (i - length (lv s L1))) in Hi by lia.
        replace (S (i + 2) - length (lv s L1))%nat with (S (S (S (i - length (lv s L1))))) by lia. exact Hi. }
  destruct HC as [HC1 HC2].
  assert (HL : forall i z B, S i = length (ls s L1) -> cw (ls s' (inord t')) i z B -> pend s' t' i).
  { intros i z B Ei C. destruct (st_pred pts corners s t done HI HP L1 above L2 j EL Hab) as [-> |(pre & m & b' & q & Q & EL1 & Hm & HQ & Hb' & Hpl)]; [done|].
    assert (Hm' : site A s' m = Some q). { rewrite X1; [done|]. rewrite EL1. apply elem_of_app. right. left. }
    assert (E1 : ls s L1 = ls s pre ++ [Q]). { rewrite EL1, (ls_app pts), (ls_site pts _ _ _ _ _ Hm HQ), (ls_none pts _ _ _ Hb'). done. }
    assert (i = length (ls s pre)) as ->. { rewrite E1, app_length in Ei. simpl in Ei. lia. }
    assert (CV : conv Q pj P z B).
    { rewrite ELs', E1, <- app_assoc in C. cbn [app] in C. eapply (cw_conv _ _ Q pj P); [| | |exact C].
      - by rewrite list_lookup_middle.
      - replace (S (length (ls s pre))) with (length (ls s pre) + 1)%nat by lia. by rewrite look_k.
      - replace (S (S (length (ls s pre)))) with (length (ls s pre) + 2)%nat by lia. by rewrite look_k. }
    destruct (HC1 (q, j, p)) as [NC|(kk & ev & Hin' & Hnd & _)].
    - rewrite Hpl. simpl. by rewrite Hm', Sa, Sc.
    - exfalso. eapply (no_conv s' q j p); eauto.
    - injection Hnd as Hnd. exists kk, ev. split; [apply Hval; by right|]. rewrite Ei, EK, ELv'. by rewrite list_lookup_middle, Hnd. }
  assert (HR : forall z B, cw (ls s' (inord t')) (S (length (ls s L1))) z B -> pend s' t' (S (length (ls s L1))) \/
     exists i z', S i = length (ls s L1) /\ pend s' t' i /\ cw (ls s' (inord t')) i z' B /\ fst z' = fst z).
  { intros z B C. destruct (st_succ pts corners s t done HI HP L1 above L2 j EL Hab) as [-> |(suf & m & b' & q & Q & EL2 & Hm & HQ & Hb' & Hpl)].
    { exfalso. rewrite ELs' in C. destruct C as (? & ? & ? & _ & _ & C & _).
      replace (S (S (S (length (ls s L1))))) with (length (ls s L1) + 3)%nat in C by lia. rewrite look_k in C. done. }
    assert (Hm' : site A s' m = Some q). { rewrite X2; [done|]. rewrite EL2. right. left. }
    assert (E2 : ls s L2 = Q :: ls s suf). { rewrite EL2, (ls_none pts _ _ _ Hb'), (ls_site pts _ _ _ _ _ Hm HQ). done. }
    assert (CV : conv P pj Q z B).
    { rewrite ELs', E2 in C. eapply (cw_conv _ _ P pj Q); [| | |exact C].
      - replace (S (length (ls s L1))) with (length (ls s L1) + 1)%nat by lia. by rewrite look_k.
      - replace (S (S (length (ls s L1)))) with (length (ls s L1) + 2)%nat by lia. by rewrite look_k.
      - replace (S (S (S (length (ls s L1))))) with (length (ls s L1) + 3)%nat by lia. by rewrite look_k. }
    destruct (HC2 (p, j, q)) as [NC|[(kk & ev & Hin' & Hnd & _)|(kk & ev & ev' & Hin' & Hnd & Htr & Hic & Heq)]].
    - rewrite Hpl. simpl. by rewrite Hm', Se, Sc.
    - exfalso. eapply (no_conv s' p j q); eauto.
    - left. injection Hnd as Hnd. exists kk, ev. split; [apply Hval; by right|]. rewrite EK, ELv'. replace (S (S (length (lv s L1)))) with (length (lv s L1) + 2)%nat by lia. rewrite look_k. by rewrite Hnd.
    - right. injection Hnd as Hnd.
      destruct (st_pred pts corners s t done HI HP L1 above L2 j EL Hab) as [-> |(pre & m2 & b2 & q2 & Q' & EL1 & Hm2 & HQ2' & Hb2 & Hpl2)]; [done|].
      assert (E1 : ls s L1 = ls s pre ++ [Q']). { rewrite EL1, (ls_app pts), (ls_site pts _ _ _ _ _ Hm2 HQ2'), (ls_none pts _ _ _ Hb2). done. }
      assert (Hv : valid_event A s' kk ev) by (apply Hval; by right).
      assert (Hlk : lv s' (inord t') !! S (length (ls s pre)) = Some (c_node ev)).
      { rewrite ELv', <- Hnd. assert (S (length (ls s pre)) = length (lv s L1)) as ->. { rewrite <- EK, E1, app_length. simpl. lia. } by rewrite list_lookup_middle. }
      destruct (same_place s' p j q P pj Q z B kk ev ev' HP' HPp Hpj HQ Hic CV Heq) as [Ex Ey].
      exists (length (ls s pre)), (c_x ev, c_y ev). split; [rewrite E1, app_length; simpl; lia|]. split; [by exists kk, ev|]. split; [|exact Ex].
      rewrite <- Ey. by apply (valid_cw pts corners s' t' (done ++ [p]) HI' HP' kk ev). }
  rewrite ELs in HQ1, HQ2, HF. rewrite ELs' in HL, HR |- *. split.
  - exact (site_Q1 (snd P) (Hs done) (ls s L1) (ls s L2) pj P (pend s t) (pend s' t') BO eq_refl Hn HU HQ1 HF HK HL HR).
  - exact (site_Q2 (snd P) (Hs done) (ls s L1) (ls s L2) pj P (pend s t) (pend s' t') BO eq_refl Hn HU HQ1 HQ2 HF HL HR).
Qed.
End SiteEvent.

(* ---------- a circle event ---------- *)
Section CircleEvent.
Context s (t : tree) (done : list nat) s' (t' : tree) (e : cevent RArith) (l : R) (pend0 : nat -> Prop).
Context (HI : Inv A s t done k0) (HP : p_xy <$> s_points s = pts) (HI' : Inv A s' t' done k0) (HP' : p_xy <$> s_points s' = pts).
Context (HT : circle_trans A s t s' t' e) (El : l = c_y e - c_r e).
Context (HC0 : exists i, lv s (inord t) !! S i = Some (c_node e) /\ cw (ls s (inord t)) i (c_x e, c_y e) l).
Context (BO : beach_ok l (Hs done) (ls s (inord t))) (HQ1 : Q1 (Hs done) (ls s (inord t)) pend0) (HQ2 : Q2 (Hs done) (ls s (inord t))).
Context (H0 : forall j, pend0 j -> lv s (inord t) !! S j <> Some (c_node e) -> pend s t j).

Lemma circle_geo : beach_ok l (Hs done) (ls s' (inord t')) /\ Q1 (Hs done) (ls s' (inord t')) (pend s' t') /\ Q2 (Hs done) (ls s' (inord t')).
Proof.
  destruct HT as (L1 & n1 & b1 & b2 & n2 & L2 & u & a & b & c & ev & EL & EL' & _ & Ha & Hb & Hc & _ & _ & _ & _ & _ & _ & Hss & _ & Hval & _ & _ & _ & (HC1 & HC2) & _).
  assert (Hin : forall n, n ∈ L1 ++ L2 -> n ∈ inord t). { intros n Hn. rewrite EL. apply elem_of_app in Hn. rewrite elem_of_app, !elem_of_cons. tauto. }
  destruct (st_site' pts corners s t done HI HP n1 a) as [Pa HPa]; [rewrite EL, elem_of_app, !elem_of_cons; tauto|done|].
  destruct (st_site' pts corners s t done HI HP (c_node e) b) as [Pb HPb]; [rewrite EL, elem_of_app, !elem_of_cons; tauto|done|].
  destruct (st_site' pts corners s t done HI HP n2 c) as [Pc HPc]; [rewrite EL, elem_of_app, !elem_of_cons; tauto|done|].
  pose proof (i_chain _ _ _ _ _ HI) as Hch. rewrite EL in Hch.
  assert (Sb1 : site A s b1 = None). { eapply (chain_gap' A s L1 n1 b1); [exact Hch|exact Ha]. }
  assert (Sb2 : site A s b2 = None). { eapply (chain_gap A s (L1 ++ [n1; b1; c_node e]) b2 n2); [rewrite <- app_assoc; exact Hch|exact Hc]. }
  pose proof (i_chain _ _ _ _ _ HI') as Hch'. rewrite EL' in Hch'.
  assert (Su : site A s' u = None). { eapply (chain_gap' A s' L1 n1 u); [exact Hch'|rewrite Hss; exact Ha]. }
  assert (EK : length (ls s L1) = length (lv s L1)).
  { apply (ls_len pts). intros n q Hn Hq. eapply (st_site' pts corners s t done HI HP); eauto. apply Hin. apply elem_of_app. by left. }
  assert (ELs : ls s (inord t) = ls s L1 ++ Pa :: Pb :: Pc :: ls s L2).
  { rewrite EL, (ls_app pts), (ls_site pts _ _ _ _ _ Ha HPa), (ls_none pts _ _ _ Sb1), (ls_site pts _ _ _ _ _ Hb HPb), (ls_none pts _ _ _ Sb2), (ls_site pts _ _ _ _ _ Hc HPc). done. }
  assert (ELv : lv s (inord t) = lv s L1 ++ n1 :: c_node e :: n2 :: lv s L2).
  { rewrite EL, lv_app, (lv_site _ _ _ _ Ha), (lv_none _ _ _ Sb1), (lv_site _ _ _ _ Hb), (lv_none _ _ _ Sb2), (lv_site _ _ _ _ Hc). done. }
  assert (Ha' : site A s' n1 = Some a) by (by rewrite Hss). assert (Hc' : site A s' n2 = Some c) by (by rewrite Hss).
  assert (ELs' : ls s' (inord t') = ls s L1 ++ Pa :: Pc :: ls s L2).
  { rewrite EL', (ls_app pts), (ls_site pts _ _ _ _ _ Ha' HPa), (ls_none pts _ _ _ Su), (ls_site pts _ _ _ _ _ Hc' HPc).
    rewrite (ls_ext pts s s' L1), (ls_ext pts s s' L2); auto. }
  assert (ELv' : lv s' (inord t') = lv s L1 ++ n1 :: n2 :: lv s L2).
  { rewrite EL', lv_app, (lv_site _ _ _ _ Ha'), (lv_none _ _ _ Su), (lv_site _ _ _ _ Hc').
    rewrite (lv_ext s s' L1), (lv_ext s s' L2); auto. }
  pose proof (lv_nodup s _ (i_nodup _ _ _ _ _ HI)) as HN.
  assert (Li : lv s (inord t) !! S (length (lv s L1)) = Some (c_node e)). { rewrite ELv. replace (S (length (lv s L1))) with (length (lv s L1) + 1)%nat by lia. by rewrite look_k. }
  assert (CV : conv Pa Pb Pc (c_x e, c_y e) l).
  { destruct HC0 as (i & Hi & Hcw). assert (S i = S (length (lv s L1))) as [= ->] by (eapply NoDup_lookup; eauto).
    rewrite <- EK, ELs in Hcw. eapply (cw_conv _ _ Pa Pb Pc); [| | |exact Hcw].
    - by rewrite list_lookup_middle.
    - replace (S (length (ls s L1))) with (length (ls s L1) + 1)%nat by lia. by rewrite look_k.
    - replace (S (S (length (ls s L1)))) with (length (ls s L1) + 2)%nat by lia. by rewrite look_k. }
  destruct CV as (X & Hz & Oa & Ob & Oc).
  rewrite ELs in BO, HQ1, HQ2.
  assert (BO' : beach_ok l (Hs done) (ls s' (inord t'))). { rewrite ELs'. exact (beach_circle l (Hs done) (ls s L1) (ls s L2) Pa Pb Pc _ BO X Hz Oa Ob Oc). }
  split; [exact BO'|].
  assert (HK : forall j, pend0 j -> S j <> length (ls s L1) -> j <> length (ls s L1) -> j <> S (length (ls s L1)) ->
     pend s' t' (if decide (j < length (ls s L1)) then j else j - 1)%nat).
  { intros j Hj N1 N2 N3. rewrite EK in *. destruct (H0 j Hj) as (kk & ev' & Hv & Hi).
    { intros E. apply N2. assert (S j = S (length (lv s L1))) as [= ->] by (eapply NoDup_lookup; eauto). done. }
    exists kk, ev'. split.
    - apply Hval. left. split; [done|]. split; intros E.
      + apply N1. eapply NoDup_lookup; [exact HN|exact Hi|]. rewrite ELv, E. by rewrite list_lookup_middle.
      + apply N3. assert (S j = S (S (length (lv s L1)))) as [= ->]; [|done]. eapply NoDup_lookup; [exact HN|exact Hi|]. rewrite ELv, E.
        replace (S (S (length (lv s L1)))) with (length (lv s L1) + 2)%nat by lia. by rewrite look_k.
    - rewrite ELv in Hi. rewrite ELv'. case_decide as Hd.
      + rewrite lookup_app_l in Hi by lia. rewrite lookup_app_l by lia. done.
      + assert (exists i, j = (length (lv s L1) + 2 + i)%nat) as [i ->] by (exists (j - length (lv s L1) - 2)%nat; lia).
        replace (S (length (lv s L1) + 2 + i)) with (length (lv s L1) + S (S (S i)))%nat in Hi by lia. rewrite look_k in Hi.
        replace (S (length (lv s L1) + 2 + i - 1)) with (length (lv s L1) + S (S i))%nat by lia. rewrite look_k. exact Hi. }
  assert (EL0 : inord t = L1 ++ n1 :: b1 :: c_node e :: b2 :: n2 :: L2) by exact EL.
  assert (HL : forall i z B, S i = length (ls s L1) -> cw (ls s' (inord t')) i z B -> pend s' t' i).
  { intros i z B Ei C. destruct (st_pred pts corners s t done HI HP L1 n1 _ a EL0 Ha) as [-> |(pre & m & b' & q & Q & EL1 & Hm & HQ & Hb' & Hpl)]; [done|].
    assert (Hm' : site A s' m = Some q) by (by rewrite Hss).
    assert (E1 : ls s L1 = ls s pre ++ [Q]). { rewrite EL1, (ls_app pts), (ls_site pts _ _ _ _ _ Hm HQ), (ls_none pts _ _ _ Hb'). done. }
    assert (i = length (ls s pre)) as ->. { rewrite E1, app_length in Ei. simpl in Ei. lia. }
    assert (CV : conv Q Pa Pc z B).
    { rewrite ELs', E1, <- app_assoc in C. cbn [app] in C. eapply (cw_conv _ _ Q Pa Pc); [| | |exact C].
      - by rewrite list_lookup_middle.
      - replace (S (length (ls s pre))) with (length (ls s pre) + 1)%nat by lia. by rewrite look_k.
      - replace (S (S (length (ls s pre)))) with (length (ls s pre) + 2)%nat by lia. by rewrite look_k. }
    destruct (HC1 (q, a, c)) as [NC|(kk & ev' & Hin' & Hnd & _)].
    - rewrite Hpl. simpl. by rewrite Hm', Ha', Hc'.
    - exfalso. eapply (no_conv s' q a c); eauto.
    - injection Hnd as Hnd. exists kk, ev'. split; [apply Hval; by right|]. rewrite Ei, EK, ELv'. by rewrite list_lookup_middle, Hnd. }
  assert (HR : forall z B, cw (ls s' (inord t')) (length (ls s L1)) z B -> pend s' t' (length (ls s L1)) \/
     exists i z', S i = length (ls s L1) /\ pend s' t' i /\ cw (ls s' (inord t')) i z' B /\ fst z' = fst z).
  { intros z B C. assert (EL2' : inord t = (L1 ++ [n1; b1; c_node e; b2]) ++ n2 :: L2) by (rewrite EL, <- app_assoc; done).
    destruct (st_succ pts corners s t done HI HP _ n2 L2 c EL2' Hc) as [-> |(suf & m & b' & q & Q & EL2 & Hm & HQ & Hb' & Hpl)].
    { exfalso. rewrite ELs' in C. destruct C as (? & ? & ? & _ & _ & C & _).
      replace (S (S (length (ls s L1)))) with (length (ls s L1) + 2)%nat in C by lia. rewrite look_k in C. done. }
    assert (Hm' : site A s' m = Some q) by (by rewrite Hss).
    assert (E2 : ls s L2 = Q :: ls s suf). { rewrite EL2, (ls_none pts _ _ _ Hb'), (ls_site pts _ _ _ _ _ Hm HQ). done. }
    assert (CV : conv Pa Pc Q z B).
    { rewrite ELs', E2 in C. eapply (cw_conv _ _ Pa Pc Q); [| | |exact C].
      - by rewrite list_lookup_middle.
      - replace (S (length (ls s L1))) with (length (ls s L1) + 1)%nat by lia. by rewrite look_k.
      - replace (S (S (length (ls s L1)))) with (length (ls s L1) + 2)%nat by lia. by rewrite look_k. }
    destruct (HC2 (a, c, q)) as [NC|[(kk & ev' & Hin' & Hnd & _)|(kk & ev' & ev2 & Hin' & Hnd & Htr & Hic & Heq)]].
    - rewrite Hpl. simpl. by rewrite Hm', Ha', Hc'.
    - exfalso. eapply (no_conv s' a c q); eauto.
    - left. injection Hnd as Hnd. exists kk, ev'. split; [apply Hval; by right|]. rewrite EK, ELv'. replace (S (length (lv s L1))) with (length (lv s L1) + 1)%nat by lia. rewrite look_k. by rewrite Hnd.
    - right. injection Hnd as Hnd.
      destruct (st_pred pts corners s t done HI HP L1 n1 _ a EL0 Ha) as [-> |(pre & m2 & b3 & q2 & Q' & EL1 & Hm2 & HQ2' & Hb3 & Hpl2)]; [done|].
      assert (E1 : ls s L1 = ls s pre ++ [Q']). { rewrite EL1, (ls_app pts), (ls_site pts _ _ _ _ _ Hm2 HQ2'), (ls_none pts _ _ _ Hb3). done. }
      assert (Hv : valid_event A s' kk ev') by (apply Hval; by right).
      assert (Hlk : lv s' (inord t') !! S (length (ls s pre)) = Some (c_node ev')).
      { rewrite ELv', <- Hnd. assert (S (length (ls s pre)) = length (lv s L1)) as ->. { rewrite <- EK, E1, app_length. simpl. lia. } by rewrite list_lookup_middle. }
      destruct (same_place s' a c q Pa Pc Q z B kk ev' ev2 HP' HPa HPc HQ Hic CV Heq) as [Ex Ey].
      exists (length (ls s pre)), (c_x ev', c_y ev'). split; [rewrite E1, app_length; simpl; lia|]. split; [by exists kk, ev'|]. split; [|exact Ex].
      rewrite <- Ey. by apply (valid_cw pts corners s' t' done HI' HP' kk ev'). }
  rewrite ELs' in HL, HR |- *. split.
  - exact (circle_Q1 l (Hs done) (ls s L1) (ls s L2) Pa Pb Pc (c_x e, c_y e) pend0 (pend s' t') BO X Hz Oa Ob Oc HQ1 HQ2 HK HL HR).
  - exact (circle_Q2 l (Hs done) (ls s L1) (ls s L2) Pa Pb Pc (c_x e, c_y e) BO X Hz Oa Ob Oc HQ2).
Qed.
End CircleEvent.
End Step.
