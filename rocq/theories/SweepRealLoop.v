(* SweepRealLoop.v -- every state of a run of the sweep in exact arithmetic on pairwise
   distinct sites: the arcs are the beach line of the handled sites, and no event lies above
   the sweep line. *)
From stdpp Require Import base list.
From Coq Require Import ZArith Reals Lra Lia Psatz Sorted.
From Verif Require Import Arith Geom Monad Tree Heapq State Sweep HeapqProofs EventOrder TreeProofs TreeOps TreeSearch Beach
  SweepBase Dcel SweepInv SweepTrans SweepSite SweepCircle SweepLoop RArith GeomReal AngleReal EdgeReal Envelope EnvelopeEvents EnvelopeRow SweepReal SweepRealStep.
Local Open Scope R_scope.

Section RLoop.
Context (pts corners : list (pt RArith)) (ND : NoDup pts).
Notation A := RArith.
Notation St := (state A).
Implicit Types s : St.
Notation k0 := (length corners).
Local Notation PT p := (@lookup nat (pt RArith) (list (pt RArith)) (@list_lookup (pt RArith)) p pts) (only parsing).
Notation ls := (ls pts).
Notation Hs := (Hs pts).
Local Arguments lv : simpl never.
Local Arguments SweepReal.ls : simpl never.
Let SWO : StrictWeakOrder (event_lt A) := event_swo A RArith_order.

(* the beach line at a sweep line at height l *)
Definition shape s (t : tree) (done : list nat) (l : R) : Prop :=
  row_ok l (Hs done) (ls s (inord t)) \/
  (beach_ok l (Hs done) (ls s (inord t)) /\ Q1 (Hs done) (ls s (inord t)) (pend s t) /\ Q2 (Hs done) (ls s (inord t))).
Definition below s (l : R) : Prop := forall it : qitem A, it ∈ s_queue s -> (i_y it <= l)%R.

Lemma event_le_y (a b : qitem A) : event_lt A b a = false -> i_y b <= i_y a.
Proof.
  unfold event_lt. destruct (deqb A (i_y b) (i_y a)) eqn:E; [apply Reqb_true in E; intros _; change (D RArith) with R in *; lra|].
  cbn [andb]. intros H. apply Rltb_false in H. change (D RArith) with R in *. lra.
Qed.
Lemma event_tie (a b : qitem A) : event_lt A b a = false -> i_y b = i_y a -> i_x a <= i_x b.
Proof.
  unfold event_lt. intros H E. assert (E1 : deqb A (i_y b) (i_y a) = true) by (by apply Reqb_true). rewrite E1 in H. cbn [andb] in H.
  destruct (deqb A (i_x b) (i_x a)) eqn:E2; [apply Reqb_true in E2; change (D RArith) with R in *; lra|]. apply Rltb_false in H. change (D RArith) with R in *. lra.
Qed.

Section Pop.
Context s (t : tree) (done : list nat) (it : qitem A) (q : list (qitem A)) (l : R).
Context (HI : Inv A s t done k0) (HP : p_xy <$> s_points s = pts) (Hpop : heappop (event_lt A) (s_queue s) = Some (it, q)).
Context (HB : below s l) (HS : shape s t done l).

Lemma pop_spec : it :: q ≡ₚ s_queue s /\ forall y, y ∈ s_queue s -> event_lt A y it = false.
Proof. destruct (heappop_spec _ SWO _ _ _ (i_heap _ _ _ _ _ HI) Hpop) as (H1 & _ & H2). split; [done|]. intros y Hy. exact (H2 y Hy). Qed.
Lemma pop_le : i_y it <= l.
Proof. apply HB. destruct pop_spec as [<- _]. left. Qed.
Lemma pop_rest jt : jt ∈ q -> i_y jt <= i_y it.
Proof. intros H. destruct pop_spec as [H1 H2]. apply event_le_y, H2. rewrite <- H1. by right. Qed.
Lemma pop_pend j z B : pend s t j -> cw (ls s (inord t)) j z B -> B <= i_y it.
Proof.
  intros Hj C. destruct (pend_item pts corners s t done HI HP j z B Hj C) as (k & e & Hin & _ & _ & <- & _).
  apply event_le_y. by apply pop_spec.
Qed.
Lemma pop_beach : beach_ok l (Hs done) (ls s (inord t)) -> Q1 (Hs done) (ls s (inord t)) (pend s t) -> beach_ok (i_y it) (Hs done) (ls s (inord t)).
Proof. intros BO HQ. exact (step_down l (i_y it) _ _ _ BO pop_le HQ pop_pend). Qed.
End Pop.

Lemma cevs_below s t done l : Inv A s t done k0 -> p_xy <$> s_points s = pts -> shape s t done l -> forall k e, valid_event A s k e -> i_y (cev_item A k e) <= l.
Proof.
  intros HI HP HS k e Hv. destruct (live_cw pts corners s t done HI HP k e (proj2 (valid_live corners s t done HI k e Hv))) as (i & Hi & C).
  destruct HS as [R|(BO & _)]; [by apply (row_no_cw _ _ _ _ _ _ R) in C|]. exact (cw_below _ _ _ _ _ _ BO C).
Qed.

Definition geo s (t : tree) (done : list nat) : Prop := exists l, s_sweep s = Some l /\ below s l /\ shape s t done l.

Lemma reach_geo s t done hist : reach A pts corners s t done hist -> geo s t done.
Proof.
  induction 1 as [s it q p m s' Hst Hpop Hev HI Hm HF Hq Hvs Hve Hce
    |s t done hist it q k e HR IH Hpop Hev Hk Hv HI
    |s t done hist it q k e s' t' HR IH Hpop Hev Hit Hk Hv Hl HI0 HT HF HI
    |s t done hist it q p pi s' t' HR IH Hpop Hev Hit Hp Hpi HI0 HI1 HT HF HI].
  - pose proof Hst as (q0 & Es & HP0 & Hh).
    destruct (heappop_spec _ SWO (s_queue s) it q) as (HP & _ & Hmin); [by subst s|done|].
    destruct (start_queue A pts corners s it Hst) as (p' & xy & Hxy & Eit); [rewrite <- HP; left|].
    assert (p' = p) as -> by (rewrite Eit in Hev; simpl in Hev; congruence).
    exists (i_y it). split; [|split].
    + change (s_sweep s' = Some (i_y it)). destruct HF as (-> & _). done.
    + intros jt Hjt. change (jt ∈ s_queue s') in Hjt. rewrite Hq in Hjt. apply event_le_y. apply (Hmin jt). rewrite <- HP. by right.
    + left. assert (E1 : Hs [p] = [xy]) by (unfold SweepReal.Hs; simpl; by rewrite Hxy).
      assert (E2 : ls (ended A it s') (inord (leaf m)) = [xy]). { change (ls s' [m] = [xy]). by rewrite (ls_site pts _ _ _ _ _ Hm Hxy). }
      change (D RArith) with R in *. rewrite E1, E2, Eit. exact (row_start xy).
  - destruct IH as (l & Hsw & HB & HS). pose proof (reach_facts A pts corners RArith_order _ _ _ _ HR) as F.
    pose proof (f_inv _ _ _ _ _ _ _ F) as HIs. destruct (pop_spec s t done it q HIs Hpop) as [HP _].
    exists l. split; [done|]. split; [intros jt Hjt; apply HB; rewrite <- HP; by right|].
    destruct HS as [R|(BO & H1 & H2)]; [left; exact R|right]. split; [exact BO|]. split; [|exact H2].
    intros j z B C. destruct (H1 j z B C) as [(i & Hi & Ci)|?]; [left|by right]. exists i. split; [|exact Ci].
    destruct Hi as (k' & e' & ((jt & Hjt & Ej) & He' & Hv') & Hlk). exists k', e'. split; [|exact Hlk].
    split; [|split; [exact He'|exact Hv']]. exists jt. split; [|exact Ej]. rewrite <- HP in Hjt. apply elem_of_cons in Hjt as [->|Hjt]; [|exact Hjt].
    exfalso. assert (k = k') as -> by congruence. assert (e = e') as -> by congruence. congruence.
  - destruct IH as (l & Hsw & HB & HS). pose proof (reach_facts A pts corners RArith_order _ _ _ _ HR) as F.
    pose proof (f_inv _ _ _ _ _ _ _ F) as HIs. pose proof (f_pts _ _ _ _ _ _ _ F) as HPs. destruct (pop_spec s t done it q HIs Hpop) as [HP Hmin].
    destruct (live_cw pts corners s t done HIs HPs k e Hl) as (i & Hi & C).
    destruct HS as [R|(BO & H1 & H2)]; [by apply (row_no_cw _ _ _ _ _ _ R) in C|].
    pose proof (pop_beach s t done it q l HIs HPs Hpop HB BO H1) as BO'.
    set (s1 := started A it (set_queue q s)) in *.
    assert (HPs' : p_xy <$> s_points s' = pts). { rewrite (frame_pts A _ _ HF). exact HPs. }
    assert (HI1 : Inv A s1 t done k0) by (by apply inv_started).
    assert (Ey : i_y it = c_y e - c_r e) by (rewrite Hit; done).
    destruct (circle_geo pts corners s1 t done s' t' e (i_y it) (pend s t) HI1 HPs HI HPs' HT) as (G1 & G2 & G3); auto.
    + exists i. split; [exact Hi|]. rewrite Ey. exact C.
    + intros j (k' & e' & ((jt & Hjt & Ej) & He' & Hv') & Hlk) Hne. exists k', e'. split; [|exact Hlk]. split; [|split; [exact He'|exact Hv']].
      exists jt. split; [|exact Ej]. rewrite <- HP in Hjt. apply elem_of_cons in Hjt as [->|Hjt]; [|exact Hjt].
      exfalso. assert (k = k') as -> by congruence. assert (e = e') as -> by congruence. apply Hne. exact Hlk.
    + assert (HS' : shape s' t' done (i_y it)) by (right; split; [exact G1|]; split; [exact G2|exact G3]).
      exists (i_y it). split; [change (s_sweep s' = Some (i_y it)); destruct HF as (-> & _); done|]. split; [|exact HS'].
      intros jt Hjt. change (jt ∈ s_queue s') in Hjt.
      pose proof HT as (L1 & n1 & b1 & b2 & n2 & L2 & u & a & b & c & ev & _ & _ & _ & _ & _ & _ & _ & _ & _ & _ & _ & _ & _ & _ & Hval & Hnew & HQ & _).
      rewrite HQ in Hjt. apply elem_of_app in Hjt as [Hjt|Hjt].
      * unfold items in Hjt. apply elem_of_list_fmap in Hjt as ([k' e'] & -> & Hin).
        eapply (cevs_below s' t' done); eauto. apply Hval. by right.
      * by apply (pop_rest s t done it q HIs Hpop).
  - destruct IH as (l & Hsw & HB & HS). pose proof (reach_facts A pts corners RArith_order _ _ _ _ HR) as F.
    pose proof (f_inv _ _ _ _ _ _ _ F) as HIs. pose proof (f_pts _ _ _ _ _ _ _ F) as HPs. destruct (pop_spec s t done it q HIs Hpop) as [HP Hmin].
    pose proof (pop_le s t done it q l HIs Hpop HB) as Hle.
    set (s1 := started A it (named A p (length done) (set_queue q s))) in *.
    assert (HPs1 : p_xy <$> s_points s1 = pts). { change (s_points s1) with (s_points (named A p (length done) (set_queue q s))). rewrite named_pts. exact HPs. }
    assert (HPs' : p_xy <$> s_points s' = pts). { rewrite (frame_pts A _ _ HF). exact HPs1. }
    assert (Ey : i_y it = snd pi) by (rewrite Hit; done).
    assert (HS' : shape s' t' (done ++ [p]) (i_y it)).
    { assert (Hp1 : forall j, pend s t j -> pend s1 t j).
      { intros j (k' & e' & ((jt & Hjt & Ej) & He' & Hv') & Hlk). exists k', e'. split; [|exact Hlk]. split; [|split; [exact He'|exact Hv']].
        exists jt. split; [|exact Ej]. rewrite <- HP in Hjt. apply elem_of_cons in Hjt as [->|Hjt]; [congruence|exact Hjt]. }
      assert (Hp2 : forall j, pend s1 t j -> pend s t j).
      { intros j (k' & e' & ((jt & Hjt & Ej) & He' & Hv') & Hlk). exists k', e'. split; [|exact Hlk]. split; [|split; [exact He'|exact Hv']].
        exists jt. split; [|exact Ej]. rewrite <- HP. right. exact Hjt. }
      assert (Hbefore : forall P, P ∈ Hs done -> snd P = snd pi -> fst P < fst pi).
      { intros P HPin EP. unfold SweepReal.Hs in HPin. apply elem_of_list_omap in HPin as (p' & Hp' & EP').
        pose proof (i_queue _ _ _ _ _ HIs it) as HQ. rewrite <- HP in HQ. specialize (HQ (elem_of_list_here _ _)). rewrite Hev in HQ. destruct HQ as (_ & _ & HQ).
        specialize (HQ p' (item_of A p' P) Hp'). apply event_tie in HQ.
        - rewrite Hit in HQ. cbn in HQ. destruct (Req_EM_T (fst P) (fst pi)) as [E|N]; [|change (D RArith) with R in *; lra].
          exfalso. apply Hp. assert (P = pi) as -> by (destruct P, pi; cbn in *; congruence). assert (p = p') as ->; [|done]. eapply NoDup_lookup; [exact ND|exact Hpi|exact EP'].
        - split; [done|]. rewrite (pxy_pts A pts s p' HPs). destruct P. exact EP'.
        - rewrite Ey. cbn. symmetry. exact EP. }
      destruct (Rle_lt_or_eq_dec _ _ Hle) as [Hlt|Heq].
      - right. 
        assert (G : beach_ok (snd pi) (Hs done) (ls s1 (inord t)) /\ Q1 (Hs done) (ls s1 (inord t)) (pend s1 t) /\ Q2 (Hs done) (ls s1 (inord t)) /\
                   (forall j z, pend s1 t j -> cw (ls s1 (inord t)) j z (snd pi) -> fst z <> fst pi)).
        { destruct HS as [R|(BO & H1 & H2)].
          - split; [apply (row_down l); [exact R|rewrite <- Ey; exact Hlt]|]. destruct (row_Q l _ _ (pend s1 t) R) as [Y1 Y2]. split; [exact Y1|]. split; [exact Y2|].
            intros j z _ C. exfalso. eapply (row_no_cw _ _ _ _ _ _ R). exact C.
          - split; [rewrite <- Ey; exact (pop_beach s t done it q l HIs HPs Hpop HB BO H1)|]. split; [|split; [exact H2|]].
            + intros j z B C. destruct (H1 j z B C) as [(i & Hi & Ci)|?]; [left|by right]. exists i. split; [by apply Hp1|exact Ci].
            + intros j z Hj C Ez. apply Hp2 in Hj. destruct (pend_item pts corners s t done HIs HPs j z _ Hj C) as (k & e & Hin & _ & _ & Ey' & Ex').
              pose proof (Hmin _ Hin) as HM. unfold event_lt in HM. rewrite Ey', Ex', Hit in HM. cbn [i_y i_x i_ev item_of is_circle cev_item] in HM.
              rewrite Ez in HM. assert (Z : forall x : D A, deqb A x x = true) by (intros; by apply Reqb_true). rewrite !Z in HM. done. }
        destruct G as (BO & Y1 & Y2 & HFz). rewrite Ey. exact (site_geo pts corners ND s1 t done s' t' p pi HI1 HPs1 HI HPs' HT Hp Hpi BO Y1 Y2 HFz).
      - destruct HS as [R|(BO & H1 & H2)].
        + left. pose proof HT as (L1 & above & L2 & j & pj & mid & ev & EL & Hj & Hpj & Hfd & EL' & Hnew & Hk1 & Hk2 & _ & _ & _ & _ & Hmid & _).
          rewrite (pxy_pts A pts s1 j HPs1) in Hpj.
          destruct (st_site pts corners s1 t done HI1 HPs1 above j) as (Pj & HPj & Hin); [rewrite EL, elem_of_app, elem_of_cons; tauto|done|].
          assert (Pj = pj) as -> by congruence.
          assert (Ej : snd pj = snd pi). { transitivity l; [exact (r_lev _ _ _ R pj Hin)|]. rewrite <- Ey. symmetry. exact Heq. }
          assert (does_intersect A pi pj = false) as DI.
          { unfold does_intersect. apply negb_false_iff, andb_true_iff. split; [by apply Reqb_true|]. apply Rltb_true. by apply Hbefore. }
          rewrite DI in Hmid. destruct Hmid as (a & b & c & -> & Ha & Hc & -> & _).
          rewrite (Hs_app pts done p pi Hpi).
          assert (ES : ls s1 (inord t) = ls s1 L1 ++ [pj]). { rewrite EL, (ls_app pts), (ls_site pts _ _ _ _ _ Hj Hpj). done. }
          assert (Hb : site A s' b = None). { eapply (chain_gap' A s' L1 a b [c]); [|exact Ha]. pose proof (i_chain _ _ _ _ _ HI) as HC. rewrite EL' in HC. exact HC. }
          assert (ES' : ls s' (inord t') = (ls s1 L1 ++ [pj]) ++ [pi]).
          { rewrite EL', (ls_app pts). cbn [app]. rewrite (ls_site pts _ _ _ _ _ Ha Hpj), (ls_none pts _ _ _ Hb), (ls_site pts _ _ _ _ _ Hc Hpi).
            rewrite (ls_ext pts s1 s' L1); [by rewrite <- app_assoc|]. intros n Hn. apply (sites_same corners s1 s' t done (L1 ++ []) HI1); auto.
            - intros x Hx. rewrite app_nil_r in Hx. rewrite EL. apply elem_of_app. by left.
            - rewrite app_nil_r. done. }
          rewrite ES'. rewrite Heq. apply row_site.
          * rewrite <- ES. exact R.
          * exact (eq_trans (eq_sym Ey) Heq).
          * intros P HPin. apply Hbefore; [exact HPin|]. transitivity l; [exact (r_lev _ _ _ R P HPin)|]. symmetry. exact (eq_trans (eq_sym Ey) Heq).
        + right.
          assert (G : beach_ok (snd pi) (Hs done) (ls s1 (inord t)) /\ Q1 (Hs done) (ls s1 (inord t)) (pend s1 t) /\ Q2 (Hs done) (ls s1 (inord t)) /\
                   (forall j z, pend s1 t j -> cw (ls s1 (inord t)) j z (snd pi) -> fst z <> fst pi)).
          { split; [rewrite <- Ey; exact (pop_beach s t done it q l HIs HPs Hpop HB BO H1)|]. split; [|split; [exact H2|]].
            + intros j z B C. destruct (H1 j z B C) as [(i & Hi & Ci)|?]; [left|by right]. exists i. split; [by apply Hp1|exact Ci].
            + intros j z Hj C Ez. apply Hp2 in Hj. destruct (pend_item pts corners s t done HIs HPs j z _ Hj C) as (k & e & Hin & _ & _ & Ey' & Ex').
              pose proof (Hmin _ Hin) as HM. unfold event_lt in HM. rewrite Ey', Ex', Hit in HM. cbn [i_y i_x i_ev item_of is_circle cev_item] in HM.
              rewrite Ez in HM. assert (Z : forall x : D A, deqb A x x = true) by (intros; by apply Reqb_true). rewrite !Z in HM. done. }
          destruct G as (BO' & Y1 & Y2 & HFz). rewrite Ey. exact (site_geo pts corners ND s1 t done s' t' p pi HI1 HPs1 HI HPs' HT Hp Hpi BO' Y1 Y2 HFz). }
    exists (i_y it). split; [change (s_sweep s' = Some (i_y it)); destruct HF as (-> & _); done|]. split; [|exact HS'].
    intros jt Hjt. change (jt ∈ s_queue s') in Hjt.
    pose proof HT as (L1 & above & L2 & j & pj & mid & ev & _ & _ & _ & _ & _ & _ & _ & _ & Hval & Hnew & HQ & _).
    rewrite HQ in Hjt. apply elem_of_app in Hjt as [Hjt|Hjt].
    + unfold items in Hjt. apply elem_of_list_fmap in Hjt as ([k' e'] & -> & Hin).
      eapply (cevs_below s' t' (done ++ [p])); eauto. apply Hval. by right.
    + by apply (pop_rest s t done it q HIs Hpop).
Qed.

(* the handled events come from top to bottom *)
Lemma reach_down s t done hist : reach A pts corners s t done hist -> forall i j a b, (i < j)%nat -> hist !! i = Some a -> hist !! j = Some b -> i_y b <= i_y a.
Proof.
  intros HR0. cut (forall i j a b, (i < j)%nat -> hist !! i = Some a -> hist !! j = Some b -> i_y b <= i_y a); [auto|].
  assert (STEP : forall s t done hist it q, reach A pts corners s t done hist -> heappop (event_lt A) (s_queue s) = Some (it, q) ->
    (forall i j a b, (i < j)%nat -> hist !! i = Some a -> hist !! j = Some b -> i_y b <= i_y a) ->
    forall i j a b, (i < j)%nat -> (hist ++ [it]) !! i = Some a -> (hist ++ [it]) !! j = Some b -> i_y b <= i_y a).
  { clear - ND SWO. intros s t done hist it q HR Hpop IH i j a b Hij Ha Hb. apply lookup_app_Some in Hb as [Hb|[Hj Hb]].
    { rewrite lookup_app_l in Ha by (apply lookup_lt_Some in Hb; lia). by eapply IH. }
    destruct (j - length hist)%nat eqn:E; [|done]. injection Hb as <-. rewrite lookup_app_l in Ha by lia.
    destruct (reach_geo _ _ _ _ HR) as (l & Hsw & HB & _). pose proof (reach_facts A pts corners RArith_order _ _ _ _ HR) as F.
    pose proof (pop_le s t done it q l (f_inv _ _ _ _ _ _ _ F) Hpop HB) as H1.
    destruct (f_sweep _ _ _ _ _ _ _ F) as (lt & Hlast & Hl & _). assert (l = i_y lt) as -> by congruence.
    rewrite last_lookup in Hlast. destruct (decide (i = Nat.pred (length hist))) as [->|N].
    - assert (a = lt) as -> by congruence. exact H1.
    - eapply Rle_trans; [exact H1|]. eapply (IH i (Nat.pred (length hist))); eauto. apply lookup_lt_Some in Ha. lia. }
  induction HR0; eauto.
  intros [|i] [|j] a b Hij; simpl; try done. lia.
Qed.
End RLoop.
