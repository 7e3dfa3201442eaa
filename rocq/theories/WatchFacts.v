(* WatchFacts.v -- observers of the status tree during a run and at its end. *)
From stdpp Require Import base list sets.
From Coq Require Import ZArith Lia String DecimalString DecimalNat.
From Verif Require Import Arith Geom Monad Tree Heapq State Sweep Finish TreeProofs SweepBase Spec Beach Dcel SweepInv SweepLoop SweepFacts Visual VisualReal VisualEdges CleanUp Watch SpecWatch WatchTree WatchKeep.
Local Open Scope monad_scope.
Local Open Scope nat_scope.

Section WF.
Context (A : Arith).
Implicit Types s : state A.

(* a status tree that can be shown, with beach line L and the sites hs named in order *)
Definition showable s (L : list nat) (hs : list nat) : Prop :=
  L <> [] /\ exists t, rep (s_nodes s) None t /\ s_root s = rootid t /\ NoDup (inord t) /\ L = inord t /\ alternating A s L /\
    (forall n, n ∈ L -> (exists p, site A s n = Some p /\ p ∈ hs) \/ exists p q, label A s n = Some (p, q) /\ p ∈ hs /\ q ∈ hs) /\
    forall k p, hs !! k = Some p -> exists x, s_points s !! p = Some x /\ p_name x = Some k.

Lemma showable_labelled s t hs : showable s (inord t) hs -> labelled A s t.
Proof.
  intros (_ & t' & H1 & H2 & H3 & _ & _ & H4 & H5) n x Hn Hx. assert (HP : forall p, p ∈ hs -> exists y, s_points s !! p = Some y).
  { intros p [k Hk]%elem_of_list_lookup. destruct (H5 k p Hk) as (y & Hy & _). eauto. }
  destruct (H4 n Hn) as [(p & Hp & Hi)|(p & q & Hl & Hp & Hq)].
  - destruct (HP p Hi) as [y Hy]. by eapply labelled_site.
  - destruct (HP p Hp) as [y Hy], (HP q Hq) as [z Hz]. by eapply labelled_label.
Qed.
Lemma show_text s L hs : showable s L hs -> exists n t, s_root s = Some n /\ visualize A n s = Val (s, t) /\ text_of A s L t.
Proof.
  intros HS. pose proof HS as (HN & t & H1 & H2 & H3 & -> & _). destruct (rootid t) as [n|] eqn:Er; [|by destruct t].
  pose proof (showable_labelled s t hs HS) as HL. exists n. eexists. split; [done|]. split.
  - unfold visualize. eapply visualize_val; [exact H1|done|done|]. pose proof (rep_depth _ _ _ H1 H3). lia.
  - exists (lines 0 t). split; [apply lines_nodes|]. split; [|done]. intros d m Hd. eapply (lines_level A s t Top 0); cbn; eauto. by rewrite Er.
Qed.
Lemma show_graph s L hs : showable s L hs -> exists n g, s_root s = Some n /\ graph A n s = Val (s, g) /\ graph_of A s L g.
Proof.
  intros HS. pose proof HS as (HN & t & H1 & H2 & H3 & -> & _). destruct (rootid t) as [n|] eqn:Er; [|by destruct t].
  pose proof (showable_labelled s t hs HS) as HL. exists n. eexists. split; [done|]. split.
  - unfold graph, bind. erewrite (graph_val A s t); [done|exact H1|done|done|]. pose proof (rep_depth _ _ _ H1 H3). lia.
  - exists (preorder t). split; [apply preorder_perm|]. split; [by rewrite (preorder_root t n Er)|]. cbn [fst].
    assert (HP : NoDup (preorder t)) by (by rewrite preorder_perm). assert (HA : forall i m, at_id t 0 i m <-> preorder t !! i = Some m).
    { intros i m. unfold at_id. rewrite Nat.sub_0_r. intuition lia. }
    split. { intros i lb. rewrite calls_nodes. split; intros (m & Hm & ->); exists m; (split; [|done]); by apply HA. }
    split.
    + intros i j. rewrite (calls_edges A s t None 0 i j HP). split.
      * intros [(? & _)|(m & m' & Hm & Hm' & HC)]; [done|]. exists m, m'. split; [by apply HA|]. split; [by apply HA|].
        destruct (child_unique _ t _ m m' H1 HC) as (x & Hx & Hp). unfold parent_of. rewrite Hx. done.
      * intros (m & m' & Hm & Hm' & HC). right. exists m, m'. split; [by apply HA|]. split; [by apply HA|].
        destruct (child_parent _ t _ m' H1) as (x & Hx & HD). { rewrite <- preorder_perm. by eapply elem_of_list_lookup_2. }
        unfold parent_of in HC. rewrite Hx in HC. cbn in HC. destruct HD as [[_ Hp]|(k & HK & Hp)]; [congruence|]. assert (k = m) as -> by congruence. done.
    + pose proof (calls_length A s t None 0) as X. unfold size in X. rewrite (Permutation_length (preorder_perm t)) in X. destruct t; [done|]. exact X.
Qed.
(* a site that was handled has its place in the order as name *)
Lemma show_name s L hs k p : showable s L hs -> hs !! k = Some p -> name_at A s p = str_name (Some k).
Proof. intros (_ & t & _ & _ & _ & _ & _ & _ & H) Hk. destruct (H k p Hk) as (x & Hx & Hn). unfold name_at. rewrite Hx. cbn. by rewrite Hn. Qed.

Lemma keeps_points s s' p x : keeps A s s' -> s_points s !! p = Some x -> exists x', s_points s' !! p = Some x' /\ p_xy x' = p_xy x /\ p_name x' = p_name x.
Proof.
  intros (_ & _ & _ & _ & _ & _ & _ & _ & _ & E) Hx. assert (X : ((fun x => (p_xy x, p_name x)) <$> s_points s') !! p = Some (p_xy x, p_name x)) by (rewrite E, list_lookup_fmap, Hx; done).
  rewrite list_lookup_fmap in X. destruct (s_points s' !! p) as [x'|]; [|done]. injection X as E1 E2. eauto.
Qed.
Lemma keeps_site s s' n : keeps A s s' -> site A s' n = site A s n.
Proof. intros (E1 & _ & _ & E2 & _). unfold site, arcid. by rewrite E1, E2. Qed.
Lemma keeps_label s s' n : keeps A s s' -> label A s' n = label A s n.
Proof. intros (E1 & _ & E2 & _). unfold label, bpid. by rewrite E1, E2. Qed.
Lemma keeps_alternating s s' L : keeps A s s' -> alternating A s L -> alternating A s' L.
Proof. intros K. induction 1; [eapply alt_one|eapply alt_cons]; rewrite ?(keeps_site _ _ _ K), ?(keeps_label _ _ _ K); done. Qed.
Lemma keeps_showable s s' L hs : keeps A s s' -> showable s L hs -> showable s' L hs.
Proof.
  intros K (HN & t & H1 & H2 & H3 & H4 & H5 & H6 & H7). split; [done|]. exists t. pose proof K as (E1 & E2 & _). rewrite E1, E2. do 4 (split; [done|]). split; [by eapply keeps_alternating|]. split.
  - intros n Hn. rewrite (keeps_site _ _ _ K), (keeps_label _ _ _ K). by apply H6.
  - intros k p Hk. destruct (H7 k p Hk) as (x & Hx & Hnm). destruct (keeps_points _ _ _ _ K Hx) as (x' & X1 & _ & X2). exists x'. split; [done|]. congruence.
Qed.

Section Run.
Context (pts corners : list (pt A)) (TO : TotalOrder A) (MO : MidOK A (fst <$> pts)) (CC : forall p q, create_circle A p q p = Val None).
Lemma runs_showable s idx hist : runs A pts corners s idx hist -> hist <> [] -> exists L, beach A s L /\ showable s L (handled_sites A hist).
Proof.
  intros HR HN. destruct (runs_reach A pts corners TO MO CC _ _ _ HR) as [(_ & _ & ->)|(t & dn & HR' & ->)]; [done|].
  pose proof (reach_facts A pts corners TO _ _ _ _ HR') as HF. pose proof (f_inv _ _ _ _ _ _ _ HF) as HI. pose proof (f_hist _ _ _ _ _ _ _ HF) as EH.
  exists (inord t). split; [by eapply inv_beach|]. pose proof (chain_alternating _ _ _ (i_chain _ _ _ _ _ HI)) as HA.
  split; [inversion HA; done|]. exists t. split; [apply HI|]. split; [apply HI|]. split; [apply HI|]. split; [done|]. split; [done|].
  change (handled_sites A hist) with (omap (site_of_item A) hist). rewrite <- EH. split; [|apply HI].
  intros n Hn. destruct (inv_node _ _ _ _ _ n HI Hn) as [(p & H1 & H2 & _)|(p & q & _ & H1 & _ & H2 & H3 & _)]; eauto 10.
Qed.
Lemma notified_runs s idx seen : notified A pts corners s idx seen -> exists hist, runs A pts corners s idx hist /\ List.length seen = List.length hist /\
  forall k sk, seen !! k = Some sk -> exists idk, runs A pts corners sk idk (take (S k) hist).
Proof.
  induction 1 as [s H|s idx seen s1 i s2 idx' H IH Hg Hst].
  - exists []. split; [by apply runs_start|]. done.
  - destruct IH as (hist & HR & EL & HK). pose proof (runs_step A pts corners s idx hist s1 i s2 idx' HR Hg Hst) as HR2. eexists. split; [exact HR2|]. destruct (ignored A s i); [done|]. split; [by rewrite !app_length, EL|].
    intros k sk Hk. apply lookup_app_Some in Hk as [Hk|[Hl Hk]].
    + destruct (HK k sk Hk) as [idk X]. exists idk. apply lookup_lt_Some in Hk. rewrite take_app_le by lia. done.
    + apply list_lookup_singleton_Some in Hk as [Hk <-]. exists idx'. rewrite take_ge by (rewrite app_length; cbn; lia). done.
Qed.
Lemma runs_notified s idx hist : runs A pts corners s idx hist -> exists seen, notified A pts corners s idx seen.
Proof.
  induction 1 as [s H|s idx hist s1 i s2 idx' H [seen IH] Hg Hst]; [eexists; by apply notified_start|]. eexists. by eapply notified_step.
Qed.

(* ---------- TreeObserver ---------- *)
Lemma tree_update_val text steps result c ms m s L hs : showable s L hs ->
  exists x, tree_update A (mkTreeObs text steps result c ms) m s =
    Val (s, if tree_wants steps result m then (mkTreeObs text steps result (S c) (ms ++ [m]), Some x) else (mkTreeObs text steps result c ms, None)) /\ tree_shows A text c s x.
Proof.
  intros HS. pose proof HS as (_ & t & H1 & H2 & H3 & H4 & H5 & _).
  assert (HB : beach A s L) by (exists t; done).
  destruct (show_text s L hs HS) as (n & tx & R1 & V1 & T1). destruct (show_graph s L hs HS) as (n' & g & R2 & V2 & T2). assert (n' = n) as -> by congruence.
  exists (if text then ShownText tx else ShownGraph c g). split; [|exists L; by destruct text].
  unfold tree_update. cbn [to_steps to_result to_text to_count to_messages].
  assert (HW : (is_msg m STEP_FINISHED && steps || is_msg m VORONOI_FINISHED && result && negb steps) = tree_wants steps result m) by (by destruct m, steps, result).
  rewrite HW. destruct (tree_wants steps result m); [|done]. unfold bind at 1, read. rewrite R1. unfold need, bind at 1, ret. destruct text.
  - unfold bind. rewrite V1. done.
  - unfold bind. rewrite V2. done.
Qed.
Lemma attend_tree text steps result l : (forall m s, (m, s) ∈ l -> exists L hs, showable s L hs) -> forall c ms,
  exists o out, attend A (tree_update A) (mkTreeObs text steps result c ms) l = Val (o, out) /\ List.length out = List.length l /\
    to_messages o = ms ++ List.filter (tree_wants steps result) (map fst l) /\ to_count o = c + List.length (List.filter (tree_wants steps result) (map fst l)) /\
    forall j m s, l !! j = Some (m, s) -> exists x, out !! j = Some x /\
      if tree_wants steps result m then exists y, x = Some y /\ tree_shows A text (c + List.length (List.filter (tree_wants steps result) (map fst (take j l)))) s y else x = None.
Proof.
  induction l as [|[m s] l IH]; intros HL c ms.
  - eexists _, []. split; [done|]. cbn. rewrite app_nil_r, Nat.add_0_r. done.
  - destruct (HL m s) as (L & hs & HS); [left|]. destruct (tree_update_val text steps result c ms m s L hs HS) as (x & Hx & Sx).
    assert (HL' : forall m s, (m, s) ∈ l -> exists L hs, showable s L hs) by (intros ???; eapply HL; by right).
    cbn [attend]. rewrite Hx. cbn [rbind fst snd].
    assert (Em : map fst ((m, s) :: l) = m :: map fst l) by done.
    destruct (tree_wants steps result m) eqn:Ew; cbn [fst snd].
    + destruct (IH HL' (S c) (ms ++ [m])) as (o & out & H1 & H2 & H3 & H4 & H5). rewrite H1. cbn [rbind fst snd]. eexists o, _. split; [done|]. split; [cbn; by rewrite H2|].
      rewrite Em. cbn [List.filter]. rewrite Ew. split; [rewrite H3, <- app_assoc; done|]. split; [rewrite H4; cbn; lia|].
      intros [|j] m' s' Hj.
      * injection Hj as <- <-. exists (Some x). split; [done|]. rewrite Ew. exists x. split; [done|]. cbn. by rewrite Nat.add_0_r.
      * destruct (H5 j m' s' Hj) as (y & Y1 & Y2). exists y. split; [done|]. destruct (tree_wants steps result m'); [|done]. destruct Y2 as (z & -> & Z). exists z. split; [done|].
        cbn [take map List.filter fst]. change (map fst ((m, s) :: take j l)) with (m :: map fst (take j l)). cbn [List.filter]. rewrite Ew. cbn [List.length]. rewrite <- Nat.add_succ_comm. exact Z.
    + destruct (IH HL' c ms) as (o & out & H1 & H2 & H3 & H4 & H5). rewrite H1. cbn [rbind fst snd]. eexists o, _. split; [done|]. split; [cbn; by rewrite H2|].
      rewrite Em. cbn [List.filter]. rewrite Ew. split; [done|]. split; [done|].
      intros [|j] m' s' Hj.
      * injection Hj as <- <-. exists None. split; [done|]. by rewrite Ew.
      * destruct (H5 j m' s' Hj) as (y & Y1 & Y2). exists y. split; [done|]. destruct (tree_wants steps result m'); [|done]. destruct Y2 as (z & -> & Z). exists z. split; [done|].
        cbn [take map List.filter fst]. change (map fst ((m, s) :: take j l)) with (m :: map fst (take j l)). cbn [List.filter]. rewrite Ew. exact Z.
Qed.

Lemma hist_full s idx hist : swept A pts corners s idx hist -> pts <> [] -> hist <> [].
Proof.
  intros [HR HQ] HN ->. destruct (runs_reach A pts corners TO MO CC _ _ _ HR) as [(Hok & _ & _)|(t & dn & HR' & _)].
  - destruct Hok as (q & -> & HP & _). cbn in HQ. subst q. destruct pts; [done|]. apply Permutation_length in HP. cbn in HP. rewrite ?fmap_length, ?map_length, ?zip_length in HP. cbn in HP. lia.
  - pose proof (reach_facts A pts corners TO _ _ _ _ HR') as HF. pose proof (f_done _ _ _ _ _ _ _ HF) as H1. rewrite (f_hist _ _ _ _ _ _ _ HF) in H1. done.
Qed.
(* every state in which observers are notified can be shown *)
Lemma notifications_showable poly flag fuel s' : pts <> [] -> create_diagram A poly flag fuel pts (init_state A corners) = Val (s', tt) ->
  exists s idx seen, notified A pts corners s idx seen /\ s_queue s = [] /\ keeps A s s' /\ forall m sj, (m, sj) ∈ notifications A seen s s' -> exists L hs, showable sj L hs.
Proof.
  intros HN HD. apply create_keeps in HD as (s0 & HS & K). destruct (sweep_swept A pts corners TO fuel s0 HS) as (s & idx & hist & HSw & ->).
  pose proof HSw as [HR HQ]. destruct (runs_notified s idx hist HR) as [seen HNo]. exists s, idx, seen. split; [done|]. split; [done|].
  assert (K' : keeps A s s') by (eapply keeps_trans; [|exact K]; repeat split). split; [done|].
  destruct (runs_showable s idx hist HR (hist_full s idx hist HSw HN)) as (L & _ & HSh).
  intros m sj [H|H]%elem_of_app.
  - apply elem_of_list_fmap in H as (sk & [= -> ->] & Hk). apply elem_of_list_lookup in Hk as [k Hk]. destruct (notified_runs s idx seen HNo) as (hist' & HR' & EL & HK).
    destruct (HK k sk Hk) as [idk HRk]. destruct (runs_showable sk idk _ HRk) as (L' & _ & X); [|eauto]. apply lookup_lt_Some in Hk. destruct hist'; [cbn in EL; lia|done].
  - apply elem_of_cons in H as [[= -> ->]|[= -> ->]%elem_of_list_singleton]; [eauto|]. exists L, (handled_sites A hist). by eapply keeps_showable.
Qed.
End Run.
End WF.

Lemma str_name_inj k k' : str_name (Some k) = str_name (Some k') -> k = k'.
Proof.
  unfold str_name. intros H. apply (f_equal DecimalString.NilEmpty.uint_of_string) in H. rewrite !DecimalString.NilEmpty.usu in H. injection H as H.
  rewrite <- (DecimalNat.Unsigned.of_to k), <- (DecimalNat.Unsigned.of_to k'). by rewrite H.
Qed.
