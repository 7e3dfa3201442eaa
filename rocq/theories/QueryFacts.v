(* QueryFacts.v -- borders(), vertices() and area() while the sweep is running, and how large the
   structures get. *)
From stdpp Require Import base list sets.
From Coq Require Import ZArith Lia.
From Verif Require Import Arith Geom Monad Tree Heapq State Sweep Finish HeapqProofs EventOrder TreeProofs TreeOps TreeSearch Beach
  SweepBase Dcel SweepInv SweepTrans SweepSite SweepCircle SweepLoop Spec SpecFinish SweepFacts FinishEdges FinishBorder FinishFacts FinishDiagram
  FinishLinks DiagramFacts EnvelopeFacts.
Local Open Scope monad_scope.

Section Walk.
Context (A : Arith).
Implicit Types s : state A.
Notation follows := (SpecFinish.follows A).
Notation walk := (SpecFinish.walk A).

(* where next, if there is one, can be undone, every walk ends *)
Lemma any_walk s (P : nat -> Prop) : (forall e, P e -> e < length (s_hedges s)) ->
  (forall e f, P e -> next A s e = Some f -> P f /\ prev A s f = Some e) ->
  forall e, P e -> exists l, walk s e l /\ Forall P l /\ length l <= length (s_hedges s).
Proof.
  intros HL HN e He.
  assert (HB : forall l, NoDup l -> Forall P l -> length l <= length (s_hedges s)).
  { intros l L5 L4. rewrite <- (seq_length (length (s_hedges s)) 0). apply submseteq_length, NoDup_submseteq; [done|].
    intros x Hx. apply elem_of_seq. rewrite Forall_forall in L4. specialize (HL x (L4 x Hx)). lia. }
  assert (HP : forall k, (exists l, length l = S k /\ head l = Some e /\ follows s l /\ Forall P l /\ NoDup l) \/
    (exists l, walk s e l /\ Forall P l)).
  { induction k as [|k IH].
    - left. exists [e]. split; [done|]. split; [done|]. split; [apply follows_cons; split; [done|intros ??? Hx; by rewrite lookup_nil in Hx]|]. split; [by constructor|]. apply NoDup_singleton.
    - destruct IH as [(l & L1 & L2 & L3 & L4 & L5)|IH]; [|by right].
      destruct (last l) as [z|] eqn:Ez. 2:{ apply last_None in Ez. by subst l. }
      pose proof Ez as Ez'. rewrite last_lookup, L1 in Ez'. simpl in Ez'. assert (Pz : P z). { rewrite Forall_forall in L4. apply L4. by eapply elem_of_list_lookup_2. }
      destruct (next A s z) as [f|] eqn:F1.
      2:{ right. exists l. split; [|done]. split; [done|]. split; [done|]. split; [eapply Forall_impl; [exact L4|apply HL]|]. split; [done|]. eauto. }
      destruct (HN z f Pz F1) as (F2 & F3). destruct (decide (f ∈ l)) as [Hin|Hout].
      + right. exists l. assert (f = e) as ->.
        { apply elem_of_list_lookup_1 in Hin as [[|i] Hi]; [destruct l; simpl in *; congruence|]. exfalso.
          assert (Hlt := lookup_lt_Some _ _ _ Hi). destruct (lookup_lt_is_Some_2 l i) as [y Hy]; [lia|]. pose proof (L3 i y f Hy Hi) as Hyf.
          assert (Py : P y). { rewrite Forall_forall in L4. apply L4. by eapply elem_of_list_lookup_2. }
          destruct (HN y f Py Hyf) as (_ & G3). assert (y = z) as -> by congruence.
          pose proof (NoDup_lookup l i k z L5 Hy Ez'). lia. }
        split; [|done]. split; [done|]. split; [done|]. split; [eapply Forall_impl; [exact L4|apply HL]|]. split; [done|]. eauto.
      + left. exists (l ++ [f]). split; [rewrite app_length; simpl; lia|]. split; [destruct l; [done|]; by simpl in *|]. split.
        * intros i a b Ha Hb. apply lookup_app_Some in Hb as [Hb|[Hi Hb]].
          -- rewrite lookup_app_l in Ha; [by eapply L3|]. apply lookup_lt_Some in Hb. lia.
          -- destruct (S i - length l) as [|j] eqn:Ej; [|by rewrite lookup_cons, lookup_nil in Hb]. simpl in Hb. injection Hb as <-.
             rewrite lookup_app_l in Ha by lia. assert (i = k) as -> by lia. congruence.
        * split; [apply Forall_app; split; [done|by constructor]|]. apply NoDup_app. split; [done|]. split; [|apply NoDup_singleton].
          intros x Hx Hxf%elem_of_list_singleton. by subst. }
  destruct (HP (length (s_hedges s))) as [(l & L1 & L2 & L3 & L4 & L5)|(l & HW & HF)].
  - exfalso. specialize (HB l L5 L4). lia.
  - exists l. split; [done|]. split; [done|]. apply HB; [apply HW|done].
Qed.
End Walk.

Section Query.
Context (A : Arith) (pts corners : list (pt A)).
Context (TO : TotalOrder A) (MO : MidOK A (fst <$> pts)) (CC : forall p q, create_circle A p q p = Val None).
Notation runs := (Spec.runs A pts corners).
Notation reach := (SweepLoop.reach A pts corners).
Implicit Types s : state A.

Lemma runs_pts s idx hist : runs s idx hist -> p_xy <$> s_points s = pts.
Proof.
  intros HR. destruct (runs_reach A pts corners TO MO CC _ _ _ HR) as [((q & -> & _) & _ & _)|(t & done & HR' & ->)].
  - simpl. apply list_eq. intros i. rewrite list_lookup_fmap. change (map ?f pts) with (f <$> pts). rewrite list_lookup_fmap. by destruct (pts !! i).
  - apply (reach_facts A pts corners TO _ _ _ _ HR').
Qed.
Lemma runs_first s idx hist p x e : runs s idx hist -> s_points s !! p = Some x -> p_first x = Some e ->
  exists h, s_hedges s !! e = Some h /\ h_inc h = Some p.
Proof.
  intros HR Hp He. destruct (runs_reach A pts corners TO MO CC _ _ _ HR) as [((q & -> & _) & _ & _)|(t & done & HR' & ->)].
  - simpl in Hp. change (map ?f pts) with (f <$> pts) in Hp. rewrite list_lookup_fmap in Hp. destruct (pts !! p); [|done]. simpl in Hp. by injection Hp as <-.
  - exact (i_pfirst _ _ _ _ _ (f_inv _ _ _ _ _ _ _ (reach_facts A pts corners TO _ _ _ _ HR')) p x e Hp He).
Qed.
Lemma runs_has_first s idx hist p : runs s idx hist -> p ∈ handled_sites A hist -> 2 <= length (handled_sites A hist) ->
  exists x e, s_points s !! p = Some x /\ p_first x = Some e.
Proof.
  intros HR Hp Hl. destruct (runs_reach A pts corners TO MO CC _ _ _ HR) as [(_ & _ & ->)|(t & done & HR' & ->)]; [simpl in Hl; lia|].
  pose proof (reach_facts A pts corners TO _ _ _ _ HR') as HF. assert (E : done = handled_sites A hist) by apply HF. rewrite <- E in *.
  exact (i_first _ _ _ _ _ (f_inv _ _ _ _ _ _ _ HF) Hl p Hp).
Qed.

Lemma query_borders s idx hist p : runs s idx hist -> p < length pts ->
  exists l, (forall fuel, length (s_hedges s) <= fuel -> borders A s fuel p = Val l) /\
    NoDup l /\ length l <= length (s_hedges s) /\ SpecFinish.follows A s l /\
    (forall e, e ∈ l -> borders_site A s e = Some p) /\
    (forall z, last l = Some z -> next A s z = None \/ next A s z = head l) /\
    (p ∈ handled_sites A hist -> 2 <= length (handled_sites A hist) -> l <> []).
Proof.
  intros HR Hp. assert (Hx : p < length (s_points s)). { rewrite <- (fmap_length p_xy), (runs_pts _ _ _ HR). done. }
  apply lookup_lt_is_Some in Hx as [x Hx]. destruct (p_first x) as [e|] eqn:He.
  - destruct (runs_first _ _ _ _ _ _ HR Hx He) as (h & Hh & Hi).
    assert (Pe : borders_site A s e = Some p) by (unfold borders_site, half; by rewrite Hh).
    destruct (any_walk A s (fun e => borders_site A s e = Some p)) with e as (l & HW & HF & HL); [|  |done|].
    + intros e' H. unfold borders_site, half in H. destruct (s_hedges s !! e') eqn:E; [|done]. by eapply lookup_lt_Some.
    + intros e' f H Hn. destruct (nexts A pts corners TO MO CC s idx hist e' f HR) as [[N1 _] N2]. destruct (N2 Hn) as [N3 _]. split; [congruence|auto].
    + exists l. split. { intros fuel Hf. eapply (proj1 (proj2 (borders_walk A s p x e Hx He))); [done|lia]. }
      split; [apply HW|]. split; [done|]. split; [apply HW|]. split; [by apply Forall_forall|]. split.
      * intros z Hz. destruct HW as (W1 & _ & _ & _ & z' & Hz' & Hn). rewrite Hz in Hz'. injection Hz' as <-. rewrite W1. tauto.
      * intros _ _ ->. destruct HW as (W1 & _). done.
  - exists []. split; [intros fuel _; by apply (borders_none A s p x)|]. split; [constructor|]. split; [simpl; lia|].
    split; [intros ??? H; by rewrite lookup_nil in H|]. split; [intros e H; by apply elem_of_nil in H|]. split; [done|].
    intros H1 H2 _. destruct (runs_has_first s idx hist p HR H1 H2) as (x' & e & H3 & H4). congruence.
Qed.

Lemma runs_located s idx hist v : runs s idx hist -> v ∈ s_vset s -> exists xy, located A s v xy.
Proof.
  intros HR Hv. destruct (d_conn _ _ _ _ _ _ _ _ (runs_dcel A pts corners TO MO CC s idx hist HR) v Hv) as (w & Hw & (a & b & c & pa & pb & pc & x & y & r & e1 & e2 & e3 & HX)).
  exists (x, y), w. split; [done|]. apply HX.
Qed.

Lemma query_vertices s idx hist p fuel l : runs s idx hist -> borders A s fuel p = Val l ->
  exists vs, cell_vertices A s fuel p = Val vs /\ (forall v, v ∈ vs <-> exists e, e ∈ l /\ starts_at A s e v) /\
    Forall (fun v => v ∈ s_vset s) vs /\ length vs <= length l.
Proof.
  intros HR HB. unfold cell_vertices. rewrite HB. cbn [rbind]. eexists. split; [reflexivity|].
  assert (HV : forall v, v ∈ flat_map (fun e => match s_hedges s !! e with
                          | Some h => match h_origin h with OVx v => [v] | OBp _ => [] end
                          | None => [] end) l <-> exists e, e ∈ l /\ starts_at A s e v).
  { intros v. rewrite elem_of_list_In, in_flat_map. split.
    - intros (e & H1 & H2). exists e. split; [by apply elem_of_list_In|]. destruct (s_hedges s !! e) as [h|] eqn:Eh; [|done].
      destruct (h_origin h) eqn:Eo; [done|]. exists h. destruct H2 as [<- |[]]. done.
    - intros (e & H1 & h & H2 & H3). exists e. split; [by apply elem_of_list_In|]. unfold half in H2. rewrite H2, H3. by left. }
  split; [exact HV|]. split.
  - apply Forall_forall. intros v Hv. apply HV in Hv as (e & _ & He). exact (vertex_known A pts corners TO MO CC s idx hist e v HR He).
  - clear. induction l as [|e l IH]; simpl; [done|]. rewrite app_length. destruct (s_hedges s !! e) as [h|]; simpl; [|lia]. destruct (h_origin h); simpl; lia.
Qed.

Lemma query_area s idx hist p fuel l : runs s idx hist -> borders A s fuel p = Val l -> exists a, area A s fuel p = Val a.
Proof.
  intros HR HB. destruct (query_vertices s idx hist p fuel l HR HB) as (vs & HV & _ & HF & _).
  unfold area, get_xy. rewrite HV. cbn [rbind].
  assert (exists qs, rmap (fun v => match s_verts s !! v with Some x => match v_xy x with Some q => Val q | None => Raise TypeError end | None => Raise Dangling end) vs = Val qs) as [qs E].
  { clear HV. induction HF as [|v vs Hv HF IH]; [by exists []|]. destruct IH as [qs IH]. destruct (runs_located s idx hist v HR Hv) as (xy & w & W1 & W2).
    simpl. rewrite W1, W2, IH. simpl. eauto. }
  rewrite E. cbn [rbind]. eauto.
Qed.

(* ---------- sizes ---------- *)
Lemma conn_nodup s idx hist : runs s idx hist -> exists L, NoDup L /\ length L = 3 * length (s_vset s) /\
  forall e, e ∈ L -> exists v, v ∈ s_vset s /\ starts_at A s e v.
Proof.
  intros HR. assert (HN : NoDup (s_vset s)). { rewrite (proj1 (d_vset _ _ _ _ _ _ _ _ (runs_dcel A pts corners TO MO CC s idx hist HR))). apply NoDup_seq. }
  assert (H : forall V, NoDup V -> (forall v, v ∈ V -> v ∈ s_vset s) -> exists L, NoDup L /\ length L = 3 * length V /\ forall e, e ∈ L -> exists v, v ∈ V /\ starts_at A s e v).
  2:{ apply H; [done|auto]. }
  induction V as [|v V IH]; intros HV Hin.
  - exists []. split; [constructor|]. split; [done|]. intros e H. by apply elem_of_nil in H.
  - apply NoDup_cons in HV as [Hv HV]. destruct IH as (L & L1 & L2 & L3); [done|intros w Hw; apply Hin; by right|].
    destruct (vertex_edges A pts corners TO MO CC s idx hist v HR (Hin v ltac:(left))) as (V1 & V2 & V3).
    exists (connected A s v ++ L). split; [|split].
    + apply NoDup_app. split; [done|]. split; [|done]. intros e He1 He2. apply V3 in He1 as (h & H1 & H2). destruct (L3 e He2) as (w & Hw & h' & H1' & H2'). congruence.
    + rewrite app_length, V1, L2. simpl. lia.
    + intros e [He|He]%elem_of_app; [exists v; split; [left|by apply V3]|]. destruct (L3 e He) as (w & Hw & Hs). exists w. split; [by right|done].
Qed.

Lemma chain_drawn s t done k0 : Inv A s t done k0 -> length (omap (drawn A s) (inord t)) + 1 = length (omap (site A s) (inord t)) /\
  NoDup (omap (drawn A s) (inord t)).
Proof.
  intros HI. assert (HO : forall n, n ∈ inord t -> forall b, bpid A s n = Some b -> open_bp A s b) by (intros; eapply i_open; eauto).
  split.
  - pose proof (i_chain _ _ _ _ _ HI) as HC. revert HO. induction HC as [n p Hn|n b m L p q Hn Hb Hm Hpq HC IH]; intros HO; simpl.
    + assert (drawn A s n = None) as ->. { unfold drawn. apply site_inv in Hn as (nd & a & x & H1 & H2 & _). unfold bpid. rewrite H1. simpl. by rewrite H2. }
      rewrite Hn. done.
    + assert (drawn A s n = None) as ->. { unfold drawn. apply site_inv in Hn as (nd & a & x & H1 & H2 & _). unfold bpid. rewrite H1. simpl. by rewrite H2. }
      assert (exists x, drawn A s b = Some x) as [x Hx].
      { unfold label in Hb. unfold drawn. destruct (bpid A s b) as [k|] eqn:Ek; [|done]. destruct (HO b ltac:(right; left) k Ek) as (y & e & h & H1 & H2 & _).
        simpl. rewrite H1. simpl. eauto. }
      assert (site A s b = None) as ->. { unfold label in Hb. destruct (bpid A s b) eqn:E; [|done]. unfold site, arcid. unfold bpid in E. destruct (s_nodes s !! b); [|done]. simpl in *. by destruct (n_data _). }
      assert (IH' := IH ltac:(intros; eapply HO; [right; right; done|done])). rewrite Hx, Hn. cbn [length]. simpl in IH'. lia.
  - assert (HB : forall n m b, n ∈ inord t -> m ∈ inord t -> bpid A s n = Some b -> bpid A s m = Some b -> n = m) by apply HI.
    pose proof (i_nodup _ _ _ _ _ HI) as HN. revert HO HB HN. generalize (inord t). intros L. induction L as [|n L IH]; intros HO HB HN; [constructor|].
    apply NoDup_cons in HN as [Hn HN]. assert (HL : NoDup (omap (drawn A s) L)). { apply IH; [intros; eapply HO; [right; done|done]| |done]. intros a b c Ha Hb. apply HB; by right. }
    simpl. destruct (drawn A s n) as [e|] eqn:En; [|done]. apply NoDup_cons. split; [|done]. intros (m & Hm & Em)%elem_of_list_omap.
    assert (HX : forall k, k ∈ n :: L -> drawn A s k = Some e -> exists b h, bpid A s k = Some b /\ s_hedges s !! e = Some h /\ h_origin h = OBp b).
    { intros k Hk Ek. unfold drawn in Ek. destruct (bpid A s k) as [b|] eqn:Eb; [|done]. destruct (HO k Hk b Eb) as (x & e' & h & H1 & H2 & H3 & H4).
      simpl in Ek. rewrite H1 in Ek. simpl in Ek. rewrite H2 in Ek. injection Ek as ->. eauto. }
    destruct (HX n ltac:(left) En) as (b & h & X1 & X2 & X3). destruct (HX m ltac:(by right) Em) as (b' & h' & Y1 & Y2 & Y3).
    assert (b' = b) as -> by congruence. apply Hn. rewrite (HB n m b ltac:(left) ltac:(by right) X1 Y1). done.
Qed.

Lemma reach_arcs s t done hist : reach s t done hist -> 2 <= length done -> 3 <= length (inord t).
Proof.
  induction 1 as [s it q p m s' Hst Hpop Hev HI Hm HF Hq Hvs Hve Hce
    |s t done hist it q k e HR IH Hpop Hev Hk Hv HI
    |s t done hist it q k e s' t' HR IH Hpop Hev Hit Hk Hv Hl HI0 HT HF HI
    |s t done hist it q p pi s' t' HR IH Hpop Hev Hit Hp Hpi HI0 HI1 HT HF HI]; intros HL; [simpl in HL; lia|auto| |].
  - destruct HT as (L1 & l & b1 & b2 & m & L2 & u & a & b & c & ev & H1 & H2 & _). rewrite H2, app_length. simpl. lia.
  - destruct HT as (L1 & above & L2 & j & pj & mid & l & H1 & _ & _ & _ & H2 & _ & _ & _ & _ & _ & _ & _ & HM & _). rewrite H2, !app_length.
    destruct (does_intersect A pi pj).
    + destruct HM as (a & b & c & d & e & -> & _). simpl. lia.
    + destruct HM as (a & b & c & -> & _). simpl. lia.
Qed.
Lemma reach_queue s t done hist : reach s t done hist -> length (s_queue s) <= length pts + length hist.
Proof.
  induction 1 as [s it q p m s' Hst Hpop Hev HI Hm HF Hq Hvs Hve Hce
    |s t done hist it q k e HR IH Hpop Hev Hk Hv HI
    |s t done hist it q k e s' t' HR IH Hpop Hev Hit Hk Hv Hl HI0 HT HF HI
    |s t done hist it q p pi s' t' HR IH Hpop Hev Hit Hp Hpi HI0 HI1 HT HF HI].
  - pose proof Hst as (q0 & Es & HP & Hh).
    assert (HPop : it :: q ≡ₚ s_queue s) by (apply (heappop_spec (event_lt A) (event_swo A TO)); [subst s; done|done]).
    apply Permutation_length in HPop. rewrite Es in HPop. simpl in HPop. apply Permutation_length in HP. rewrite imap_length in HP.
    change (length (s_queue s') <= length pts + 1). rewrite Hq. lia.
  - simpl. assert (HPop : it :: q ≡ₚ s_queue s). { apply (heappop_spec (event_lt A) (event_swo A TO)); [|done]. apply (f_inv _ _ _ _ _ _ _ (reach_facts A pts corners TO _ _ _ _ HR)). }
    apply Permutation_length in HPop. simpl in HPop. lia.
  - assert (HPop : it :: q ≡ₚ s_queue s). { apply (heappop_spec (event_lt A) (event_swo A TO)); [|done]. apply (f_inv _ _ _ _ _ _ _ (reach_facts A pts corners TO _ _ _ _ HR)). }
    apply Permutation_length in HPop. simpl in HPop.
    destruct HT as (L1 & l & b1 & b2 & m & L2 & u & a & b & c & ev & _ & _ & _ & _ & _ & _ & _ & _ & _ & _ & _ & _ & _ & _ & _ & _ & HQ & HE & _).
    apply Permutation_length in HQ. rewrite app_length in *. unfold items in HQ. rewrite ?map_length, ?fmap_length in HQ. simpl in *. lia.
  - assert (HPop : it :: q ≡ₚ s_queue s). { apply (heappop_spec (event_lt A) (event_swo A TO)); [|done]. apply (f_inv _ _ _ _ _ _ _ (reach_facts A pts corners TO _ _ _ _ HR)). }
    apply Permutation_length in HPop. simpl in HPop.
    destruct HT as (L1 & above & L2 & j & pj & mid & l & _ & _ & _ & _ & _ & _ & _ & _ & _ & _ & HQ & HE & _).
    apply Permutation_length in HQ. rewrite app_length in *. unfold items in HQ. rewrite ?map_length, ?fmap_length in HQ. simpl in *. lia.
Qed.

Lemma hist_split (hist : list (qitem A)) : length hist = length (handled_sites A hist) + handled_circles A hist.
Proof.
  unfold handled_sites, handled_circles. induction hist as [|i hist IH]; [done|]. cbn [omap list_omap List.filter length]. destruct (i_ev i); cbn [is_circle length] in *; rewrite IH; unfold omap; lia.
Qed.

Lemma sizes s idx hist L : runs s idx hist -> hist <> [] -> beach A s L ->
  length (s_edges s) + 1 = length (handled_sites A hist) + length (s_vset s) /\
  length (arcs_on A s L) + length (s_vset s) + 1 <= 2 * length (handled_sites A hist) /\
  (2 <= length (handled_sites A hist) -> 2 <= length (arcs_on A s L)) /\
  length hist = length (handled_sites A hist) + length (s_vset s) /\
  length (s_queue s) <= length pts + length hist.
Proof.
  intros HR HN HB. destruct (runs_reach A pts corners TO MO CC _ _ _ HR) as [(_ & _ & ->)|(t & dn & HR' & ->)]; [done|].
  pose proof (reach_facts A pts corners TO _ _ _ _ HR') as HF. pose proof (f_inv _ _ _ _ _ _ _ HF) as HI.
  assert (E : dn = handled_sites A hist) by apply HF. rewrite <- E.
  assert (L = inord t) as -> by (eapply beach_det; [exact HB|]; eapply inv_beach, HI).
  destruct (chain_drawn s t dn (length corners) HI) as [C1 C2].
  split; [apply HI|]. split; [|split; [|split]].
  - destruct (conn_nodup s _ hist HR) as (K & K1 & K2 & K3).
    assert (HB' : length (K ++ omap (drawn A s) (inord t)) <= length (s_hedges s)).
    { rewrite <- (seq_length (length (s_hedges s)) 0). apply submseteq_length, NoDup_submseteq.
      - apply NoDup_app. split; [done|]. split; [|done]. intros e He (n & Hn & En)%elem_of_list_omap. destruct (K3 e He) as (v & _ & h & H1 & H2).
        unfold drawn in En. destruct (bpid A s n) as [b|] eqn:Eb; [|done]. destruct (i_open _ _ _ _ _ HI n b Hn Eb) as (x & e' & h' & X1 & X2 & X3 & X4).
        simpl in En. rewrite X1 in En. simpl in En. rewrite X2 in En. injection En as ->. unfold half in H1. congruence.
      - intros e [He|(n & Hn & En)%elem_of_list_omap]%elem_of_app; apply elem_of_seq.
        + destruct (K3 e He) as (v & _ & h & H1 & H2). apply lookup_lt_Some in H1. lia.
        + unfold drawn in En. destruct (bpid A s n) as [b|] eqn:Eb; [|done]. destruct (i_open _ _ _ _ _ HI n b Hn Eb) as (x & e' & h' & X1 & X2 & X3 & X4).
          simpl in En. rewrite X1 in En. simpl in En. rewrite X2 in En. injection En as ->. apply lookup_lt_Some in X3. lia. }
    rewrite app_length, K2 in HB'. pose proof (d_half _ _ _ _ _ _ _ _ (i_dcel _ _ _ _ _ HI)) as HH. pose proof (i_count _ _ _ _ _ HI) as HC.
    unfold arcs_on. lia.
  - intros Hd. pose proof (reach_arcs s t dn hist HR' Hd) as H3. unfold arcs_on.
    pose proof (i_chain _ _ _ _ _ HI) as HC. clear - H3 HC. destruct HC as [n p Hn|n b m L p q Hn Hb Hm Hpq HC]; [simpl in H3; lia|].
    cbn [omap list_omap]. rewrite Hn. simpl. destruct (site A s b); [simpl; lia|]. rewrite Hm. simpl. lia.
  - rewrite E, (hist_split hist). f_equal. apply HF.
  - exact (reach_queue _ _ _ _ HR').
Qed.
End Query.

Lemma lfilter_length {X} (f : X -> bool) (l : list X) : length (List.filter f l) <= length l.
Proof. induction l as [|x l IH]; simpl; [lia|]. destruct (f x); simpl; lia. Qed.

Section Finished.
Context (A : Arith) (pts corners : list (pt A)).
Context (TO : TotalOrder A) (MO : MidOK A (fst <$> pts)) (CC : forall p q, create_circle A p q p = Val None) (poly : polygon A).
Implicit Types s : state A.

Lemma swept_sizes s idx hist : swept A pts corners s idx hist -> 1 <= length pts ->
  length (s_edges s) + 1 = length pts + length (s_vset s) /\ length (s_vset s) + 2 <= 2 * length pts /\
  (2 <= length pts -> length (s_vset s) + 3 <= 2 * length pts).
Proof.
  intros [HR Hq] Hn. destruct (runs_reach A pts corners TO MO CC _ _ _ HR) as [(Hok & -> & ->)|(t & dn & HR' & ->)].
  { destruct Hok as (q & -> & HP & _). simpl in Hq. subst q. apply Permutation_nil in HP. destruct pts; simpl in *; [lia|done]. }
  pose proof (reach_facts A pts corners TO _ _ _ _ HR') as HF. pose proof (reach_done A pts corners TO _ _ _ _ HR' Hq) as HD'.
  pose proof (Permutation_length HD') as HL. rewrite seq_length in HL. assert (E : dn = handled_sites A hist) by apply HF.
  assert (HN : hist <> []). { intros ->. simpl in E. subst dn. simpl in HL. lia. }
  pose proof (inv_beach A s t dn _ (f_inv _ _ _ _ _ _ _ HF)) as HB.
  destruct (sizes A pts corners TO MO CC s _ hist (inord t) HR HN HB) as (S1 & S2 & S3 & _ & _). rewrite <- E, HL in S1, S2, S3.
  assert (1 <= length (arcs_on A s (inord t))).
  { destruct (i_chain _ _ _ _ _ (f_inv _ _ _ _ _ _ _ HF)) as [n p Hs|n b m L p q Hs]; unfold arcs_on; cbn [omap list_omap]; rewrite Hs; simpl; lia. }
  split; [done|]. split; [lia|]. intros H2. specialize (S3 H2). lia.
Qed.

Lemma swept_events s idx hist : swept A pts corners s idx hist -> 2 <= length pts -> length hist = length pts + length (s_vset s).
Proof.
  intros HS Hn. pose proof HS as [HR Hq]. destruct (runs_reach A pts corners TO MO CC _ _ _ HR) as [(Hok & -> & ->)|(t & dn & HR' & ->)].
  { destruct Hok as (q & -> & HP & _). simpl in Hq. subst q. apply Permutation_nil in HP. destruct pts; simpl in *; [lia|done]. }
  pose proof (reach_facts A pts corners TO _ _ _ _ HR') as HF. pose proof (reach_done A pts corners TO _ _ _ _ HR' Hq) as HD'.
  pose proof (Permutation_length HD') as HL. rewrite seq_length in HL. assert (E : dn = handled_sites A hist) by apply HF.
  rewrite (hist_split A hist), <- E, HL. f_equal. apply HF.
Qed.

Lemma finished_sizes fuel s' : 1 <= length pts -> 2 <= length corners -> create_diagram A poly false fuel pts (init_state A corners) = Val (s', tt) ->
  length (s_edges s') + 12 <= 9 * length pts + length corners + (if decide (length pts = 1) then 3 else 0) /\
  length (s_vset s') + 11 <= 8 * length pts + length corners + (if decide (length pts = 1) then 3 else 0).
Proof.
  intros Hn Hk H. destruct (create_false A pts corners TO MO CC poly fuel false s' Hn Hk H) as (s3 & s4 & HB & _ & H4 & ->). injection H4 as <-.
  destruct HB as (s & idx & hist & s1 & r & dead & p & x & s2 & ex & v0 & w0 & xy0 & xys & i & HS & HC & R1 & _ & _ & _ & _ & _ & _ & _ & _ & _ & HX & _ & ->).
  destruct (swept_sizes s idx hist HS Hn) as (S1 & S2 & S3).
  assert (Hr : length r <= length (s_edges s)). { rewrite (c_kept _ _ _ _ _ _ _ _ HC). apply (lfilter_length _ (s_edges s)). }
  assert (Hex : length ex <= length (s_vset s)).
  { apply sublist_length in HX. destruct (c_ext _ _ _ _ _ _ _ _ HC) as (tw & HE & _). destruct (ext_sites A _ _ _ HE) as (_ & _ & Ev & _). rewrite Ev in HX. exact HX. }
  assert (Hring : length (ring A poly s1) <= length corners + 2 * length (s_edges s)).
  { destruct HS as [HR Hq]. destruct (runs_corners A pts corners TO MO CC s idx hist HR) as (_ & Hpv & _).
    destruct (c_ext _ _ _ _ _ _ _ _ HC) as (tw & HE & _). destruct (x_pv _ _ _ _ HE) as (new & Hnew & HV). change (s_pverts (after_sweep A s)) with (s_pverts s) in Hnew.
    rewrite Hpv in Hnew. pose proof (x_len _ _ _ _ HE) as HL. change (s_hedges (after_sweep A s)) with (s_hedges s) in HL.
    rewrite (d_half _ _ _ _ _ _ _ _ (runs_dcel A pts corners TO MO CC s idx hist HR)) in HL.
    rewrite (Permutation_length (ring_perm A poly s1)). etransitivity; [apply lfilter_length|].
    assert (ND : NoDup new). { pose proof (f_pvnd _ _ _ _ _ _ _ _ _ _ _ (c_fin _ _ _ _ _ _ _ _ HC)) as ND. rewrite Hnew in ND. by apply NoDup_app in ND as (_ & _ & ?). }
    rewrite Hnew, app_length, seq_length. apply Nat.add_le_mono_l. rewrite <- HL.
    set (f := fun h : hedge => match h_origin h with OVx v => Some v | OBp _ => None end).
    assert (HI : forall v, v ∈ new -> v ∈ omap f (s_hedges s1)).
    { intros v Hv. destruct (HV v Hv) as (_ & e & h & _ & H1 & H2). apply elem_of_list_omap. exists h. split; [by eapply elem_of_list_lookup_2|]. unfold f. by rewrite H2. }
    etransitivity; [apply (submseteq_length new (omap f (s_hedges s1))), NoDup_submseteq; done|].
    clear. induction (s_hedges s1) as [|h l IH]; simpl; [lia|]. unfold omap in IH. destruct (f h); simpl; lia. }
  change (s_edges (logged A (set_vlist true (set_vset (ring A poly s1 ++ ex) (set_edges (r ++ map (ed A s1) (seq 0 (length (ring A poly s1)))) s2)))))
    with (r ++ map (ed A s1) (seq 0 (length (ring A poly s1)))).
  change (s_vset (logged A (set_vlist true (set_vset (ring A poly s1 ++ ex) (set_edges (r ++ map (ed A s1) (seq 0 (length (ring A poly s1)))) s2)))))
    with (ring A poly s1 ++ ex).
  rewrite !app_length, map_length, seq_length. case_decide; lia.
Qed.
End Finished.
