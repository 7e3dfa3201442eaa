(* ClipBeach.v -- the open ends of the sweep, drawn on a finishing line below all events, are
   points of the Voronoi diagram.  Exact arithmetic. *)
From stdpp Require Import base list sets.
From Coq Require Import ZArith Reals Lra Lia Psatz.
From Verif Require Import Arith Geom Monad Tree Heapq State Sweep HeapqProofs EventOrder TreeProofs TreeOps TreeSearch Beach
  SweepBase Dcel SweepInv SweepTrans SweepSite SweepCircle SweepLoop Spec SweepFacts RArith GeomReal AngleReal EdgeReal Envelope EnvelopeEvents EnvelopeRow FinishFacts
  SweepReal SweepRealStep SweepRealLoop SweepRealFacts VoronoiGeom VoronoiStep Voronoi SpecVoronoi VoronoiFacts.
Local Open Scope R_scope.

Section CB.
Context (pts corners : list (pt RArith)) (ND : NoDup pts).
Notation A := RArith.
Notation St := (state A).
Implicit Types s : St.
Notation k0 := (length corners).
Local Notation PT p := (@lookup nat (pt RArith) (list (pt RArith)) (@list_lookup (pt RArith)) p pts) (only parsing).
Notation ls := (ls pts).
Notation Hs := (Hs pts).
Notation TO := RArith_order.
Notation MO := (RArith_mid (fst <$> pts)).
Notation CC := RArith_circle.
Notation hv := (hv pts).
Local Arguments lv : simpl never.
Local Arguments SweepReal.ls : simpl never.

(* the sweep line is at a site or at the lowest point of the circle around a vertex *)
Lemma reach_sweep s t dn hist l : reach A pts corners s t dn hist -> s_sweep s = Some l ->
  (exists P : rpt, P ∈ pts /\ l = snd P) \/ exists v z, v ∈ s_vset s /\ located A s v z /\ l < snd z /\ forall P : rpt, P ∈ pts -> 0 <= out P l z.
Proof.
  intros HR Hl. revert l Hl. induction HR as [s it q p m s' Hst Hpop Hev HI Hm HF Hq Hvs Hve Hce
    |s t done hist it q k e HR IH Hpop Hev Hk Hv HI
    |s t done hist it q k e s' t' HR IH Hpop Hev Hit Hk Hv Hl HI0 HT HF HI
    |s t done hist it q p pi s' t' HR IH Hpop Hev Hit Hp Hpi HI0 HI1 HT HF HI]; intros l Hsw.
  - left. change (s_sweep s' = Some l) in Hsw. destruct HF as (HF & _). rewrite HF in Hsw. injection Hsw as <-. pose proof Hst as (q0 & Es & HP0 & Hh).
    destruct (heappop_spec _ (event_swo A RArith_order) (s_queue s) it q) as (HPq & _ & Hmin); [by subst s|done|].
    destruct (start_queue A pts corners s it Hst) as (p' & xy & Hxy & Eit); [rewrite <- HPq; left|].
    exists xy. split; [by eapply elem_of_list_lookup_2|]. by rewrite Eit.
  - exact (IH l Hsw).
  - right. change (s_sweep s' = Some l) in Hsw. destruct HF as (HF & _). rewrite HF in Hsw. injection Hsw as <-.
    pose proof (reach_facts A pts corners RArith_order _ _ _ _ HR) as F. pose proof (f_inv _ _ _ _ _ _ _ F) as HIs. pose proof (f_pts _ _ _ _ _ _ _ F) as HPs.
    destruct (live_cw pts corners s t done HIs HPs k e Hl) as (i & Hi & C).
    assert (Ey : i_y it = c_y e - c_r e) by (rewrite Hit; done). rewrite <- Ey in C.
    pose proof HT as (L1 & n1 & b1 & b2 & n2 & L2 & u & a' & b' & c' & ev & EL & EL' & Hu & Ha & Hb & Hc & Nab & Nbc & Nac & Lb1 & Lb2 & Lu & Hss & _ & _ & _ & _ & _ & _ & (conn & Ev) & Evs & _).
    exists (length (s_verts s)), (c_x e, c_y e). split; [|split; [|split]].
    + change (s_vset (ended A it s')) with (s_vset s'). rewrite Evs. apply elem_of_app. right. by left.
    + exists (mkVertex (Some (c_x e, c_y e)) conn). split; [|done]. change (s_verts (ended A it s')) with (s_verts s'). rewrite Ev. apply list_lookup_middle. done.
    + destruct C as (? & ? & ? & _ & _ & _ & _ & C & _). exact C.
    + destruct (reach_geo pts corners ND _ _ _ _ HR) as (l & Hsw & HB & HS).
      destruct HS as [R|(BO & H1 & H2)]; [by apply (row_no_cw _ _ _ _ _ _ R) in C|].
      pose proof (pop_beach pts corners s t done it q l HIs HPs Hpop HB BO H1) as BO'.
      intros P HP. apply elem_of_list_lookup in HP as [q0 HQ']. assert (Hlt : (q0 < length pts)%nat) by (by eapply lookup_lt_Some).
      destruct (f_all _ _ _ _ _ _ _ F q0 Hlt) as [Hd|(jt & Hjt & Ejt)].
      * eapply (cw_empty _ _ _ _ _ BO' C). unfold SweepReal.Hs. apply elem_of_list_omap. eauto.
      * apply out_below.
        -- destruct (pop_spec corners s t done it q HIs Hpop) as [HPm Hmin]. pose proof (event_le_y it jt (Hmin jt Hjt)) as Hle'.
           pose proof (i_queue _ _ _ _ _ HIs jt Hjt) as HQq. rewrite Ejt in HQq. destruct HQq as (_ & [_ Hxy] & _). rewrite (pxy_pts A pts s q0 HPs) in Hxy.
           pose proof (eq_trans (eq_sym Hxy) HQ') as X. injection X as <-. exact Hle'.
        -- destruct C as (? & ? & ? & _ & _ & _ & _ & C & _). exact C.
  - left. change (s_sweep s' = Some l) in Hsw. destruct HF as (HF & _). rewrite HF in Hsw. injection Hsw as <-.
    exists pi. split; [by eapply elem_of_list_lookup_2|]. by rewrite Hit.
Qed.

(* z is above the beach line of the sites when the sweep line is at fl: nearer to a site than to the line *)
Definition above (fl : R) (z : rpt) : Prop := fl < snd z /\ exists P : rpt, P ∈ pts /\ out P fl z < 0.

Section Low.
Context s idx hist (HSw : swept A pts corners s idx hist) (fl : R).
Notation above := (above fl).
Context (LS : forall P : rpt, P ∈ pts -> fl < snd P).
Context (LV : forall z a b c, NoDup [a; b; c] -> nearest pts a z -> nearest pts b z -> nearest pts c z -> above z).

Lemma low_over : over pts corners s. Proof. by eapply swept_over. Qed.

Lemma vertex_above v z : v ∈ s_vset s -> located A s v z -> above z.
Proof.
  intros Hv Hz. destruct HSw as [HR _]. destruct (vertex_meeting pts corners ND s idx hist v z HR Hv Hz) as (a & b & c & N & Ha & Hb & Hc). eauto.
Qed.
Lemma sweep_low t dn l : reach A pts corners s t dn hist -> s_sweep s = Some l -> fl < l.
Proof.
  intros HR Hl. destruct (reach_sweep s t dn hist l HR Hl) as [(P & IP & ->)|(v & z & Hv & Hz & L1 & O1)]; [by apply LS|].
  destruct (vertex_above v z Hv Hz) as (L2 & Q & IQ & OQ). apply Rnot_le_lt. intros X. pose proof (out_mono Q fl l z X ltac:(lra)). specialize (O1 Q IQ). lra.
Qed.
(* an open end: at the beach line for fl, or far up between two of the highest sites *)
Lemma open_end e P Q w : hv s e P Q None w -> (exists a : rpt, (forall m, get_intersection A Q P fl m = Val (fst a, Fin (A:=A) (snd a))) /\
  edge_at Q P fl a /\ pair_ok Q P fl /\ forall r : rpt, r ∈ pts -> 0 <= out r fl a) \/
  (snd P = snd Q /\ fst P < fst Q /\ (forall r : rpt, r ∈ pts -> snd r <= snd P) /\ e ∉ s_edges s).
Proof.
  intros He. pose proof He as (h & f & g & p & q & H1 & H2 & H3 & H4 & H5 & H6 & H7 & H8 & H9).
  destruct (runs_reach A pts corners TO MO CC _ _ _ (proj1 HSw)) as [(Hok & _ & _)|(t & dn & HR & _)].
  { destruct Hok as (q0 & -> & _). done. }
  pose proof (reach_facts A pts corners TO _ _ _ _ HR) as F. pose proof (f_inv _ _ _ _ _ _ _ F) as HI. pose proof (f_pts _ _ _ _ _ _ _ F) as HPs.
  destruct (reach_vor pts corners ND _ _ _ _ HR) as (HK & HG & _). destruct (hv_wf pts corners ND s t dn HI HK _ _ _ _ _ He) as (IP & IQ & NPQ & _).
  assert (SUB : forall r : rpt, r ∈ Hs dn -> r ∈ pts). { intros r Hr. unfold SweepReal.Hs in Hr. apply elem_of_list_omap in Hr as (x & _ & Hx). by eapply elem_of_list_lookup_2. }
  assert (ALL : forall r : rpt, r ∈ pts -> r ∈ Hs dn).
  { intros r Hr. apply elem_of_list_lookup in Hr as [j Hj]. unfold SweepReal.Hs. apply elem_of_list_omap. exists j. split; [|done].
    destruct (f_all _ _ _ _ _ _ _ F j) as [|(it & Hit & _)]; [by eapply lookup_lt_Some|done|]. destruct HSw as [_ Hq]. rewrite Hq in Hit. by apply elem_of_nil in Hit. }
  destruct (hv_top pts corners s t dn HI HPs HG e P Q w He) as [(k & KQ & KP)|(X1 & X2 & X3 & X4)]; [left|right; split; [done|]; split; [done|]; split; [auto|done]].
  destruct (reach_order pts corners ND s t dn hist fl HR) as [R|BO].
  - intros l0 Hl0. left. by eapply sweep_low.
  - intros j ev ((it & Hit & _) & _). destruct HSw as [_ Hq]. rewrite Hq in Hit. by apply elem_of_nil in Hit.
  - exfalso. pose proof (r_lev _ _ _ R P IP). pose proof (LS P (SUB _ IP)). lra.
  - destruct (b_edge_at _ _ fl k Q P BO KQ KP) as (z & Hz & Ex). exists z.
    pose proof (b_pair_ok _ _ _ _ _ _ BO KQ KP) as PO. split; [|split; [done|split; [done|]]].
    + intros m. destruct (gi_value Q P fl m) as (y & GV & GY); [left; apply LS; auto|left; apply LS; auto|]. rewrite GV. rewrite <- Ex.
      destruct PO as (_ & _ & _ & _ & LV'). destruct GY as (pp & Hpp & Lpp & ->).
      * unfold does_intersect. cbn [deqb dltb RArith]. change (D RArith) with R in *. destruct Q as [qx qy], P as [px py]. cbn [fst snd] in *.
        rewrite Reqb_dec. destruct (Req_EM_T qy py) as [Eq|]; [|done]. specialize (LV' Eq). cbn [andb]. destruct (Rltb px qx) eqn:EL; [|done]. apply Rltb_true in EL. lra.
      * left. apply LS. auto.
      * do 3 f_equal. rewrite <- Ex. destruct Hpp as [-> | ->]; symmetry; [by apply (edge_y_left Q P)|by apply (edge_y_right Q P)].
    + intros r Hr. apply (b_edge _ _ fl k Q P z BO KQ KP Hz). auto.
Qed.
(* every point with both sites nearest is on the edge, as far as its open end goes *)
Lemma open_on e P Q w z : hv s e P Q None w -> dist2 P z = dist2 Q z -> (forall r : rpt, r ∈ pts -> dist2 P z <= dist2 r z) -> on P Q None w z.
Proof.
  intros He E HM. split; [done|]. split; [done|]. intros y ->.
  destruct (hv_over pts corners ND s low_over _ _ _ _ _ He) as (N & _ & O2 & _). specialize (O2 y eq_refl).
  assert (VX : exists v, v ∈ s_vset s /\ located A s v y).
  { pose proof He as (h & f & g & p & q & H1 & H2 & H3 & H4 & H5 & H6 & H7 & H8 & H9). unfold start in H9. destruct (h_origin g) as [b|v] eqn:Ho; [done|].
    destruct (s_verts s !! v) as [w|] eqn:Ew; [|done]. exists v. split; [|by exists w].
    pose proof (runs_dcel A pts corners TO MO CC _ _ _ (proj1 HSw)) as HD. apply (d_vert _ _ _ _ _ _ _ _ HD f g v H3 Ho). }
  destruct VX as (v & Hv & Hz). destruct (vertex_meeting pts corners ND s idx hist v y (proj1 HSw) Hv Hz) as (a & b & c & Nabc & (Pa & EPa & Ma) & (Pb & EPb & Mb) & (Pc & EPc & Mc)).
  assert (INJ : forall i j (X Y : rpt), i <> j -> (PT i) = Some X -> (PT j) = Some Y -> X <> Y) by (intros i j X Y Nij E1 E2 ->; apply Nij; eapply NoDup_lookup; [exact ND|exact E1|exact E2]).
  apply NoDup_cons in Nabc as [N1 Nbc]. apply NoDup_cons in Nbc as [N2 _].
  assert (Nab : a <> b) by (intros ->; apply N1; left). assert (Nac : a <> c) by (intros ->; apply N1; right; left). assert (Nbc : b <> c) by (intros ->; apply N2; left).
  destruct (third Pa Pb Pc P Q) as (X & EX & X1 & X2); [by eapply (INJ a b)|by eapply (INJ b c)|by eapply (INJ a c)|].
  assert (IX : X ∈ pts) by (destruct EX as [-> |[-> | ->]]; by eapply elem_of_list_lookup_2).
  destruct (hv_pts pts s e P Q _ _ He) as [IP IQ].
  assert (DX : dist2 X y = dist2 P y).
  { assert (OP : on P Q None (Some y) y). { split; [done|]. split; [done|]. intros u [= <-]. destruct P, Q, y. unfold ahead; cbn [fst snd]. right. ring. }
    pose proof (over_sound pts corners ND s low_over _ _ _ _ _ _ He OP X IX). apply Rle_antisym; [|done].
    destruct EX as [-> |[-> | ->]]; [by apply Ma|by apply Mb|by apply Mc]. }
  assert (CR : cross3 P Q X <> 0). { apply (cocircular_cross P Q X y (sqrt (dist2 P y))); try (rewrite sqrt_sqrt by apply dist2_nonneg); congruence. }
  assert (SG : 0 <= - cross3 P Q X).
  { assert (OP : on P Q None (Some y) (move y (- 1) (dir P Q))).
    { split; [by apply equi_move|]. split; [done|]. intros u [= <-]. rewrite ahead_move. pose proof (dist2_pos P Q N). lra. }
    pose proof (over_sound pts corners ND s low_over _ _ _ _ _ _ He OP X IX) as S1. pose proof (power_move P Q X y (- 1)) as PM. rewrite DX in PM. lra. }
  destruct (same_line P Q y z N O2 E) as [u ->]. rewrite ahead_move. pose proof (HM X IX) as S2. pose proof (power_move P Q X y u) as PM. rewrite DX in PM.
  pose proof (dist2_pos P Q N). assert (u <= 0) by nra. nra.
Qed.
End Low.
End CB.
