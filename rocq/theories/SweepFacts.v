(* SweepFacts.v -- from the sweep's invariant to the statements of the properties. *)
From stdpp Require Import base list sets.
From Coq Require Import ZArith Lia.
From Verif Require Import Arith Geom Monad Tree Heapq State Sweep HeapqProofs EventOrder TreeProofs TreeOps TreeSearch Beach
  SweepBase Dcel SweepInv SweepTrans SweepSite SweepCircle SweepLoop Spec.
Local Open Scope monad_scope.

Section Facts.
Context (A : Arith) (pts corners : list (pt A)).
Notation St := (state A).
Implicit Types s : St.
Notation n := (length pts).
Context (TO : TotalOrder A) (MO : MidOK A (fst <$> pts)) (CC : forall p q, create_circle A p q p = Val None).
Notation runs := (runs A pts corners).
Notation reach := (reach A pts corners).
Notation start_ok := (start_ok A pts corners).
Notation stepped := (stepped A pts).

Lemma runs_reach s idx hist : runs s idx hist ->
  (start_ok s /\ idx = 0 /\ hist = []) \/ exists t done, reach s t done hist /\ idx = length done.
Proof.
  intros H. induction H as [s Hs|s idx hist s1 i s2 idx' HR IH Hg Hst].
  - left. destruct (start_run A pts corners TO) as (s' & [s0 ps] & H1 & H2 & H3). cbn [fst snd] in *.
    unfold bind in Hs. rewrite H1, H2 in Hs. injection Hs as <-. done.
  - right. unfold queue_get in Hg. destruct (heappop (event_lt A) (s_queue s)) as [[it q]|] eqn:Hpop; [|done].
    injection Hg as <- ->. destruct IH as [(Hok & -> & ->)|(t & done & HR' & ->)].
    + pose proof (first_post A pts corners TO s i q Hok Hpop) as HP. rewrite Hst in HP.
      destruct HP as (t' & done' & hist' & HR' & -> & _ & -> & p & m & Hev & _). exists t', done'. split; [|done].
      unfold ignored. rewrite Hev. done.
    + pose proof (step_post A pts corners TO MO CC s t done hist i q HR' Hpop) as HP. rewrite Hst in HP.
      destruct HP as (t' & done' & hist' & HR'' & -> & _ & HS). exists t', done'. split; [|done].
      replace (if ignored A s i then hist else hist ++ [i]) with hist'; [done|]. unfold ignored.
      destruct HS as [(k & e & -> & -> & -> & _ & _ & _ & ->)|[(k & e & s0 & -> & _ & -> & -> & _ & _ & _ & _ & _ & ->)|(p & pi & s0 & -> & _ & _ & _ & _ & _ & _ & _ & ->)]]; done.
Qed.

Lemma runs_next s idx hist s1 i s2 idx' : runs s idx hist -> queue_get A s = Val (s1, Some i) -> step A i idx s1 = Val (s2, idx') ->
  exists q, heappop (event_lt A) (s_queue s) = Some (i, q) /\ s1 = set_queue q s /\
  ((start_ok s /\ exists p m, i_ev i = ESite p /\ reach s2 (leaf m) [p] [i] /\ site A s2 m = Some p) \/
   (exists t done t' done' hist', reach s t done hist /\ reach s2 t' done' hist' /\ stepped s t done hist i q s2 t' done' hist')).
Proof.
  intros HR Hg Hst. unfold queue_get in Hg. destruct (heappop (event_lt A) (s_queue s)) as [[it q]|] eqn:Hpop; [|done].
  injection Hg as <- ->. exists q. split; [done|]. split; [done|].
  destruct (runs_reach _ _ _ HR) as [(Hok & -> & ->)|(t & done & HR' & ->)].
  - left. split; [done|]. pose proof (first_post A pts corners TO s i q Hok Hpop) as HP. rewrite Hst in HP.
    destruct HP as (t' & done' & hist' & HR' & -> & _ & -> & p & m & Hev & -> & Hs & -> & _). eauto 10.
  - right. pose proof (step_post A pts corners TO MO CC s t done hist i q HR' Hpop) as HP. rewrite Hst in HP.
    destruct HP as (t' & done' & hist' & HR'' & -> & _ & HS). eauto 10.
Qed.

Lemma inv_beach s t done k : Inv A s t done k -> beach A s (inord t).
Proof. intros H. exists t. split; [apply H|]. split; [apply H|]. split; [apply H|done]. Qed.
Lemma start_beach s : start_ok s -> beach A s [].
Proof. intros (q & -> & _). exists E. simpl. split; [done|]. split; [done|]. split; [constructor|done]. Qed.

(* ---------- C13 ---------- *)
Lemma sweep_ends fuel : 7 * n < fuel ->
  match sweep A fuel pts (init_state A corners) with
  | Val _ => True
  | Raise e => e = InvalidOperation \/ e = DivisionByZero
  end.
Proof.
  intros Hf. pose proof (sweep_post A pts corners TO MO CC fuel Hf) as HP. unfold post in HP.
  destruct (sweep A fuel pts (init_state A corners)) as [[s []]|e]; [done|exact HP].
Qed.

(* the final state of a sweep is the final state of a run *)
Lemma loop_swept fuel s idx hist s' : runs s idx hist -> sweep_loop A fuel idx s = Val (s', tt) ->
  exists idx' hist', swept A pts corners s' idx' hist'.
Proof.
  revert s idx hist. induction fuel as [|fuel IH]; [done|]. intros s idx hist HR. simpl. unfold bind at 1.
  destruct (queue_get A s) as [[s1 [i|]]|] eqn:Hg; [| |done].
  - unfold bind. destruct (step A i idx s1) as [[s2 idx']|] eqn:Hst; [|done]. intros H.
    eapply IH; [|exact H]. eapply runs_step; eauto.
  - intros [= <-]. exists idx, hist. unfold queue_get in Hg. destruct (heappop (event_lt A) (s_queue s)) as [[it q]|] eqn:Hpop; [done|].
    injection Hg as <-. split; [done|]. by apply heappop_None in Hpop.
Qed.
Lemma sweep_swept fuel s' : sweep A fuel pts (init_state A corners) = Val (s', tt) ->
  exists s idx hist, swept A pts corners s idx hist /\
    s' = set_log (s_log s ++ [(SAlgorithm, DEBUG, s_sweep s); (SAlgorithm, SWEEP_FINISHED, s_sweep s)]) s.
Proof.
  unfold sweep. destruct (start_run A pts corners TO) as (s & [s0 ps] & H1 & H2 & _). cbn [fst snd] in *.
  unfold bind at 1. rewrite H1. unfold bind at 1. rewrite H2. unfold bind at 1.
  destruct (sweep_loop A fuel 0 s) as [[s1 []]|] eqn:HL; [|done]. intros [= <-].
  destruct (loop_swept fuel s 0 [] s1) as (idx & hist & HS); [|done|].
  { apply runs_start. unfold bind. rewrite H1. exact H2. }
  exists s1, idx, hist. split; [done|]. rewrite <- app_assoc. done.
Qed.

(* ---------- C03 ---------- *)
Lemma site_order_hist s idx hist : swept A pts corners s idx hist ->
  exists order, order = handled_sites A hist /\ order ≡ₚ seq 0 n /\ s_sites s = seq 0 n /\ p_xy <$> s_points s = pts /\
    (forall i j p q xp xq, i < j -> order !! i = Some p -> order !! j = Some q -> pts !! p = Some xp -> pts !! q = Some xq ->
       dltb A (snd xq) (snd xp) = true \/ (deqb A (snd xp) (snd xq) = true /\ dltb A (fst xq) (fst xp) = false)) /\
    (forall i p, order !! i = Some p -> exists x, s_points s !! p = Some x /\ p_name x = Some i).
Proof.
  intros [HR Hq]. destruct (runs_reach _ _ _ HR) as [(Hok & -> & ->)|(t & done & HR' & ->)].
  - destruct Hok as (q & -> & HP & _). simpl in Hq. subst q. apply Permutation_nil in HP.
    assert (pts = []) as Ep by (by destruct pts). exists []. simpl. rewrite Ep. simpl. split_and!; try done.
  - pose proof (reach_facts A pts corners TO _ _ _ _ HR') as HF. exists done.
    split; [apply (f_hist _ _ _ _ _ _ _ HF)|]. split; [eapply reach_done; eauto|].
    split; [apply (f_sites _ _ _ _ _ _ _ HF)|]. split; [apply (f_pts _ _ _ _ _ _ _ HF)|]. split.
    + intros i j p q xp xq Hij Hp Hq' Hxp Hxq.
      pose proof (f_order _ _ _ _ _ _ _ HF i j p q xp xq Hij Hp Hq' Hxp Hxq) as HO.
      unfold event_lt, item_of in HO. simpl in HO. rewrite (d_eq_sym _ TO (snd xq)) in HO. rewrite (d_eq_sym _ TO (fst xq)) in HO.
      destruct (deqb A (snd xp) (snd xq)) eqn:Ey; simpl in HO.
      * right. split; [done|]. destruct (deqb A (fst xp) (fst xq)) eqn:Ex; simpl in HO; [|done].
        apply d_eq_iff in Ex; [tauto|done].
      * left. destruct (dltb A (snd xq) (snd xp)) eqn:E1; [done|]. exfalso.
        assert (deqb A (snd xp) (snd xq) = true) by (apply d_eq_iff; auto). congruence.
    + intros i p Hp. apply (i_names _ _ _ _ _ (f_inv _ _ _ _ _ _ _ HF) i p Hp).
Qed.

(* ---------- the beach line in general ---------- *)
Lemma chain_alternating s L : chain (site A s) (label A s) L -> alternating A s L.
Proof. induction 1; [by eapply alt_one|by eapply alt_cons]. Qed.
Lemma alt_node s L m : alternating A s L -> m ∈ L -> (exists p, site A s m = Some p /\ label A s m = None) \/ (exists p q, label A s m = Some (p, q) /\ site A s m = None).
Proof.
  assert (HS : forall k p, site A s k = Some p -> label A s k = None) by (intros k p; apply site_label).
  assert (HLb : forall k p, label A s k = Some p -> site A s k = None).
  { intros k p Hk. destruct (site A s k) eqn:E; [|done]. apply HS in E. congruence. }
  induction 1 as [k p Hk|k b m' L p q Hk Hb Hm' Hpq _ IH].
  - intros ->%elem_of_list_singleton. eauto.
  - intros [->|[->|Hin]%elem_of_cons]%elem_of_cons; [eauto|destruct (HLb b (p, q)); eauto|auto].
Qed.

Lemma runs_beach s idx hist : runs s idx hist -> exists L, beach A s L /\ (L = [] /\ hist = [] \/ alternating A s L /\ hist <> []).
Proof.
  intros HR. destruct (runs_reach _ _ _ HR) as [(Hok & -> & ->)|(t & done & HR' & ->)].
  - exists []. split; [by apply start_beach|]. auto.
  - pose proof (reach_facts A pts corners TO _ _ _ _ HR') as HF. exists (inord t).
    split; [eapply inv_beach, HF|]. right. split; [apply chain_alternating, (f_inv _ _ _ _ _ _ _ HF)|].
    intros ->. pose proof (f_done _ _ _ _ _ _ _ HF) as H1. rewrite (f_hist _ _ _ _ _ _ _ HF) in H1. done.
Qed.

Lemma pending_live s t done k0 k e : Inv A s t done k0 -> pending A s k e -> live A s (inord t) k e /\ exists i, i ∈ s_queue s /\ i = cev_item A k e.
Proof.
  intros HI ((i & Hi & Hk) & He & Hv). pose proof (i_queue _ _ _ _ _ HI i Hi) as HQ. rewrite Hk in HQ.
  destruct HQ as (e' & He' & Ei & HL). assert (e' = e) as -> by congruence. split; [auto|]. eauto.
Qed.
Lemma live_in s L k e : live A s L k e -> c_node e ∈ L.
Proof. intros (K1 & l & b1 & b2 & m & K2 & pa & pb & pc & ar & x & -> & _). clear. set_solver. Qed.

(* ---------- C11 ---------- *)
Lemma site_event_effect s idx hist s1 i s2 idx' p : runs s idx hist -> queue_get A s = Val (s1, Some i) -> i_ev i = ESite p ->
  step A i idx s1 = Val (s2, idx') ->
  exists L, beach A s L /\
    (L = [] -> exists m, beach A s2 [m] /\ site A s2 m = Some p) /\
    (L <> [] -> exists L1 old L2 new j pj pp,
       L = L1 ++ old :: L2 /\ beach A s2 (L1 ++ new ++ L2) /\ site A s old = Some j /\ pts !! j = Some pj /\ pts !! p = Some pp /\
       arcs_on A s2 new = (if deqb A (snd pp) (snd pj) && dltb A (fst pj) (fst pp) then [j; p] else [j; p; j]) /\
       (deqb A (snd pp) (snd pj) && dltb A (fst pj) (fst pp) = true -> L2 = []) /\
       alternating A s2 (L1 ++ new ++ L2) /\
       (forall m, m ∈ L1 ++ L2 -> site A s2 m = site A s m /\ label A s2 m = label A s m) /\
       (forall k e, pending A s2 k e -> c_node e <> old) /\
       (forall k e, pending A s k e -> c_node e <> old -> pending A s2 k e) /\
       (forall k e, k < length (s_cevs s) -> pending A s2 k e -> pending A s k e)).
Proof.
  intros HR Hg Hev Hst. destruct (runs_next _ _ _ _ _ _ _ HR Hg Hst) as (q & Hpop & -> & [(Hok & p' & m & Hev' & HR2 & Hs2)|
    (t & done & t' & done' & hist' & HR1 & HR2 & HS)]).
  { exists []. split; [by apply start_beach|]. split; [|done]. intros _. exists m. assert (p' = p) as -> by congruence.
    split; [|done]. eapply (inv_beach _ (leaf m)), (f_inv _ _ _ _ _ _ _ (reach_facts A pts corners TO _ _ _ _ HR2)). }
  pose proof (reach_facts A pts corners TO _ _ _ _ HR1) as HF1. pose proof (reach_facts A pts corners TO _ _ _ _ HR2) as HF2.
  pose proof (f_inv _ _ _ _ _ _ _ HF1) as HI1. pose proof (f_inv _ _ _ _ _ _ _ HF2) as HI2.
  destruct HS as [(k & e & Hk & _)|[(k & e & s0 & Hk & _)|(p' & pi & s0 & Hp' & Ei & Hpi & Hpd & HT & HFr & -> & -> & ->)]]; [congruence|congruence|].
  assert (p' = p) as -> by congruence. clear Hp'.
  exists (inord t). split; [by eapply inv_beach|]. split.
  { intros E0. exfalso. pose proof (i_full _ _ _ _ _ HI1) as Hf. destruct t; [done|]. simpl in E0. by destruct (inord t1). }
  intros _. destruct HT as (L1 & above & L2 & j & pj & mid & l & EL & Hsa & Hpj & Hfd & EL' & Hnew & Hst1 & Hlb1 & Hval & Hlnew & HQ & _ & Hmid & _).
  assert (Pj : pts !! j = Some pj).
  { rewrite <- (pxy_pts A pts s j) by apply HF1. rewrite <- Hpj. symmetry. apply (named_pxy A p (length done) (set_queue q s)). }
  exists L1, above, L2, mid, j, pj, pi. split; [done|].
  split; [rewrite <- EL'; eapply inv_beach; exact HI2|]. split; [exact Hsa|]. split; [exact Pj|]. split; [exact Hpi|].
  assert (HC2 : alternating A (ended A i s0) (L1 ++ mid ++ L2)) by (rewrite <- EL'; apply chain_alternating, HI2).
  assert (HP : forall k e, pending A (ended A i s0) k e <-> (pending A s k e /\ c_node e <> above) \/ (k, e) ∈ l).
  { intros k e. change (pending A (ended A i s0) k e) with (valid_event A s0 k e). rewrite Hval.
    assert (valid_event A (started A i (named A p (length done) (set_queue q s))) k e <-> pending A s k e) as ->; [|done].
    unfold valid_event, pending. simpl. assert (HPq : i :: q ≡ₚ s_queue s) by (eapply heappop_spec; [by apply event_swo|apply HI1|done]).
    split; intros ((it & Hit & Hk) & H2); (split; [|done]); exists it; (split; [|done]).
    - rewrite <- HPq. by right.
    - rewrite <- HPq in Hit. apply elem_of_cons in Hit as [->|?]; [congruence|done]. }
  assert (Hold : forall k e, (k, e) ∈ l -> length (s_cevs s) <= k) by (intros k e Hl; exact (proj2 (Hlnew k e Hl))).
  split; [|split]; [| |split; [done|split; [|split; [|split]]]].
  - unfold does_intersect in Hmid. destruct (deqb A (snd pi) (snd pj) && dltb A (fst pj) (fst pi)); simpl in Hmid.
    + destruct Hmid as (a & b & c & -> & Ha & Hc & _).
      pose proof (i_chain _ _ _ _ _ HI2) as HC. rewrite EL' in HC.
      assert (Hb : site A s0 b = None) by exact (chain_gap' A (ended A i s0) L1 a b ([c] ++ L2) j HC Ha).
      unfold arcs_on. change (site A (ended A i s0)) with (site A s0). simpl. by rewrite Ha, Hb, Hc.
    + destruct Hmid as (a & b & c & d & e & -> & Ha & Hc & He & _).
      pose proof (i_chain _ _ _ _ _ HI2) as HC. rewrite EL' in HC.
      assert (Hb : site A s0 b = None) by exact (chain_gap' A (ended A i s0) L1 a b ([c; d; e] ++ L2) j HC Ha).
      change (L1 ++ [a; b; c; d; e] ++ L2) with (L1 ++ [a; b] ++ c :: d :: [e] ++ L2) in HC. rewrite app_assoc in HC.
      assert (Hd : site A s0 d = None) by exact (chain_gap' A (ended A i s0) (L1 ++ [a; b]) c d ([e] ++ L2) p HC Hc).
      unfold arcs_on. change (site A (ended A i s0)) with (site A s0). simpl. by rewrite Ha, Hb, Hc, Hd, He.
  - unfold does_intersect in Hmid. intros Hd. rewrite Hd in Hmid. destruct Hmid as (a & b & c & _ & _ & _ & H & _). done.
  - intros m Hm. destruct (alt_node s (inord t) m) as [(r & H1 & H2)|(r & r' & H1 & H2)].
    + apply chain_alternating, HI1.
    + rewrite EL. clear - Hm. set_solver.
    + assert (E1 : site A (ended A i s0) m = Some r) by (apply Hst1; done). rewrite E1, H1, H2. split; [done|]. by eapply site_label.
    + assert (E1 : label A (ended A i s0) m = Some (r, r')) by (apply Hlb1; done). rewrite E1, H1, H2. split; [|done].
      destruct (site A (ended A i s0) m) eqn:E2; [|done]. apply site_label in E2. congruence.
  - intros k e Hpe Hn. destruct (pending_live _ _ _ _ _ _ HI2 Hpe) as [Hlv%live_in _]. rewrite EL', Hn in Hlv.
    pose proof (i_nodup _ _ _ _ _ HI1) as HN. rewrite EL in HN.
    destruct (rep_lookup _ _ _ above (i_rep _ _ _ _ _ HI1)) as [x Hx]; [rewrite EL; clear; set_solver|].
    apply lookup_lt_Some in Hx. apply NoDup_app in HN as (_ & HN1 & HN2). apply NoDup_cons in HN2 as [HN2 _].
    apply elem_of_app in Hlv as [H|[H|H]%elem_of_app].
    + apply (HN1 _ H). left.
    + apply Hnew in H. change (s_nodes (started A i (named A p (length done) (set_queue q s)))) with (s_nodes s) in H. lia.
    + done.
  - intros k e H1 H2. apply HP. auto.
  - intros k e Hk [[? _]|Hl]%HP; [done|]. specialize (Hold k e Hl). lia.
Qed.

(* ---------- C12 ---------- *)
Lemma start_no_circle s k i : start_ok s -> i ∈ s_queue s -> i_ev i <> ECircle k.
Proof. intros Hok Hi. destruct (start_queue A pts corners s i Hok Hi) as (p & xy & _ & ->). done. Qed.
Lemma popped_in s i q t done k0 : Inv A s t done k0 -> heappop (event_lt A) (s_queue s) = Some (i, q) -> i :: q ≡ₚ s_queue s.
Proof. intros HI Hp. eapply heappop_spec; [by apply event_swo|apply HI|done]. Qed.
Lemma start_popped s i q : start_ok s -> heappop (event_lt A) (s_queue s) = Some (i, q) -> i ∈ s_queue s.
Proof. intros (q0 & -> & HP & Hh) Hp. simpl in *. assert (i :: q ≡ₚ q0) as <-; [|left]. eapply heappop_spec; [by apply event_swo|done|done]. Qed.

Lemma circle_event_effect s idx hist s1 i k e s2 idx' : runs s idx hist -> queue_get A s = Val (s1, Some i) -> i_ev i = ECircle k ->
  s_cevs s !! k = Some e -> c_valid e = true -> step A i idx s1 = Val (s2, idx') ->
  exists L1 l b1 b2 m L2 u a b c,
    beach A s (L1 ++ l :: b1 :: c_node e :: b2 :: m :: L2) /\ beach A s2 (L1 ++ l :: u :: m :: L2) /\ (u = b1 \/ u = b2) /\
    site A s l = Some a /\ site A s (c_node e) = Some b /\ site A s m = Some c /\ c_triple e = (a, b, c) /\ NoDup [a; b; c] /\
    label A s b1 = Some (a, b) /\ label A s b2 = Some (b, c) /\ label A s2 u = Some (a, c) /\
    (forall x, x ∈ L1 ++ l :: m :: L2 -> site A s2 x = site A s x) /\
    (forall x, x ∈ L1 ++ L2 -> label A s2 x = label A s x) /\
    (forall k' e', pending A s2 k' e' -> k' < length (s_cevs s) -> pending A s k' e' /\ c_node e' <> l /\ c_node e' <> m) /\
    (forall k' e', pending A s k' e' -> k' <> k -> c_node e' <> l -> c_node e' <> m -> pending A s2 k' e') /\
    (exists conn, s_verts s2 = s_verts s ++ [mkVertex (Some (c_x e, c_y e)) conn]) /\
    s_vset s2 = s_vset s ++ [length (s_verts s)] /\
    length (s_edges s2) = S (length (s_edges s)).
Proof.
  intros HR Hg Hev Hk Hv Hst. destruct (runs_next _ _ _ _ _ _ _ HR Hg Hst) as (q & Hpop & -> & [(Hok & p' & m & Hev' & HR2 & Hs2)|
    (t & done & t' & done' & hist' & HR1 & HR2 & HS)]); [congruence|].
  pose proof (reach_facts A pts corners TO _ _ _ _ HR1) as HF1. pose proof (reach_facts A pts corners TO _ _ _ _ HR2) as HF2.
  pose proof (f_inv _ _ _ _ _ _ _ HF1) as HI1. pose proof (f_inv _ _ _ _ _ _ _ HF2) as HI2.
  pose proof (popped_in _ _ _ _ _ _ HI1 Hpop) as HPq.
  pose proof (i_qnodup _ _ _ _ _ HI1) as HNq. rewrite <- (fmap_Permutation i_ev _ _ HPq) in HNq. apply NoDup_cons in HNq as [Hnin _].
  destruct HS as [(k' & e' & Hk' & He' & Hv' & _)|[(k' & e' & s0 & Hk' & Ei & He' & Hv' & Hlive & HT & HFr & -> & -> & ->)|(p' & pi & s0 & Hp' & _)]]; [congruence| |congruence].
  assert (k' = k) as -> by congruence. assert (e' = e) as -> by congruence. clear Hk' He' Hv'.
  destruct HT as (L1 & l & b1 & b2 & m & L2 & u & a & b & c & ev & EL & EL' & Hu & Hl & Hn & Hm & Hab & Hbc & Hac & Hb1 & Hb2 & Hlu & Hss & Hll & Hval & Hnew & HQ & _ & _ & Hvs & Hvset & _ & Hed & _).
  exists L1, l, b1, b2, m, L2, u, a, b, c. rewrite <- EL, <- EL'.
  split; [by eapply inv_beach|]. split; [by eapply inv_beach|]. split; [done|]. split; [done|]. split; [done|]. split; [done|].
  split.
  { destruct Hlive as (K1 & l' & b1' & b2' & m' & K2 & pa & pb & pc & ar & x & EK & Kl & _ & Kn & _ & Km & Kt & _).
    rewrite Kt. rewrite EL in EK. change (L1 ++ l :: b1 :: c_node e :: b2 :: m :: L2) with (L1 ++ [l; b1] ++ c_node e :: b2 :: m :: L2) in EK.
    rewrite app_assoc in EK. pose proof (i_nodup _ _ _ _ _ HI1) as HN. rewrite EL in HN.
    change (L1 ++ l :: b1 :: c_node e :: b2 :: m :: L2) with (L1 ++ [l; b1] ++ c_node e :: b2 :: m :: L2) in HN. rewrite app_assoc in HN.
    destruct (nodup_pos _ _ _ _ _ HN EK) as [E1 E2]. injection E2 as <- <- _.
    change [l; b1] with ([l] ++ [b1]) in E1. change [l'; b1'] with ([l'] ++ [b1']) in E1. rewrite !app_assoc in E1.
    apply app_inj_tail in E1 as [E1 _]. apply app_inj_tail in E1 as [_ <-].
    change (site A s l = Some a) in Hl. change (site A s (c_node e) = Some b) in Hn. change (site A s m = Some c) in Hm. congruence. }
  split. { apply NoDup_cons. split; [|apply NoDup_cons; split; [|apply NoDup_singleton]]; rewrite ?elem_of_cons, ?elem_of_nil; naive_solver. }
  split; [exact Hb1|]. split; [exact Hb2|]. split; [exact Hlu|].
  split; [intros x _; apply Hss|]. split; [exact Hll|].
  assert (HP : forall k' e', pending A (ended A i s0) k' e' <-> (pending A s k' e' /\ k' <> k /\ c_node e' <> l /\ c_node e' <> m) \/ (k', e') ∈ ev).
  { intros k' e'. change (pending A (ended A i s0) k' e') with (valid_event A s0 k' e'). rewrite Hval.
    assert (valid_event A (started A i (set_queue q s)) k' e' <-> pending A s k' e' /\ k' <> k) as ->; [|tauto].
    unfold valid_event, pending. simpl. split.
    - intros ((it & Hit & Hki) & H2). split; [split; [|done]; exists it; split; [|done]; rewrite <- HPq; by right|].
      intros ->. apply Hnin. rewrite Hev, <- Hki. apply elem_of_list_fmap. eauto.
    - intros (((it & Hit & Hki) & H2) & Hne). split; [|done]. exists it. split; [|done]. rewrite <- HPq in Hit.
      apply elem_of_cons in Hit as [->|?]; [congruence|done]. }
  split. { intros k' e' [(H1 & _ & H2 & H3)|Hin]%HP Hlt; [done|]. pose proof (proj2 (Hnew _ _ Hin)) as Hge.
    change (s_cevs (started A i (set_queue q s))) with (s_cevs s) in Hge. lia. }
  split. { intros k' e' H1 H2 H3 H4. apply HP. auto. }
  split; [exact Hvs|]. split; [exact Hvset|]. change (s_edges (ended A i s0)) with (s_edges s0). rewrite Hed, app_length. simpl. lia.
Qed.

(* ---------- C19 ---------- *)
Lemma no_false_alarm s idx hist k e : runs s idx hist -> pending A s k e ->
  exists L l m a b c pa pb pc, beach A s L /\ consecutive L l (c_node e) m /\
    site A s l = Some a /\ site A s (c_node e) = Some b /\ site A s m = Some c /\ c_triple e = (a, b, c) /\
    pts !! a = Some pa /\ pts !! b = Some pb /\ pts !! c = Some pc /\
    create_circle A pa pb pc = Val (Some (c_x e, c_y e, c_r e)).
Proof.
  intros HR Hpe. destruct (runs_reach _ _ _ HR) as [(Hok & -> & ->)|(t & done & HR' & ->)].
  { destruct Hpe as ((i & Hi & Hk) & _). exfalso. by eapply start_no_circle. }
  pose proof (reach_facts A pts corners TO _ _ _ _ HR') as HF. pose proof (f_inv _ _ _ _ _ _ _ HF) as HI.
  destruct (pending_live _ _ _ _ _ _ HI Hpe) as [(K1 & l & b1 & b2 & m & K2 & pa & pb & pc & ar & x & EK & Kl & _ & Kn & _ & Km & Kt & (xa & xb & xc & HP3 & Hco) & _) _].
  exists (inord t), l, m, pa, pb, pc, xa, xb, xc. split; [by eapply inv_beach|]. split.
  { exists K1, b1, b2, K2. rewrite EK. by rewrite <- app_assoc. }
  do 4 (split; [done|]). unfold points3 in HP3. rewrite !(pxy_pts A pts s) in HP3 by apply HF.
  destruct (pts !! pa), (pts !! pb), (pts !! pc); simpl in HP3; try done. injection HP3 as -> -> ->.
  do 3 (split; [done|]). by apply circle_of_create.
Qed.

(* ---------- C14 - C17, C39 ---------- *)
Lemma runs_dcel s idx hist : runs s idx hist -> dcel A (pxy A s) (s_hedges s) (s_bps s) (s_verts s) (s_vset s) (s_edges s) (length corners).
Proof.
  intros HR. destruct (runs_reach _ _ _ HR) as [(Hok & -> & ->)|(t & done & HR' & ->)].
  - destruct Hok as (q & -> & _). simpl. apply dcel_empty. by rewrite map_length.
  - apply (i_dcel _ _ _ _ _ (f_inv _ _ _ _ _ _ _ (reach_facts A pts corners TO _ _ _ _ HR'))).
Qed.

Lemma twins s idx hist e : runs s idx hist -> e < length (s_hedges s) ->
  exists f p q, twin A s e = Some f /\ f <> e /\ twin A s f = Some e /\ borders_site A s e = Some p /\ borders_site A s f = Some q /\ p <> q.
Proof.
  intros HR He. apply lookup_lt_is_Some in He as [h Hh].
  destruct (d_twin _ _ _ _ _ _ _ _ (runs_dcel _ _ _ HR) e h Hh) as (f & g & p & q & H1 & H2 & H3 & H4 & H5 & H6 & H7).
  exists f, p, q. unfold twin, borders_site, half. rewrite Hh, H3. simpl. auto 10.
Qed.
Lemma nexts s idx hist e f : runs s idx hist ->
  (next A s e = Some f <-> prev A s f = Some e) /\
  (next A s e = Some f -> borders_site A s f = borders_site A s e /\
     exists t v, twin A s e = Some t /\ starts_at A s t v /\ starts_at A s f v).
Proof.
  intros HR. pose proof (runs_dcel _ _ _ HR) as HD. unfold next, prev, half.
  assert (HN : forall e f, (s_hedges s !! e ≫= h_next) = Some f -> (s_hedges s !! f ≫= h_prev) = Some e /\
    borders_site A s f = borders_site A s e /\ exists t v, twin A s e = Some t /\ starts_at A s t v /\ starts_at A s f v).
  { intros e' f'. destruct (s_hedges s !! e') as [h|] eqn:Hh; [|done]. simpl. intros Hn.
    destruct (d_next _ _ _ _ _ _ _ _ HD e' h f' Hh Hn) as (g & t & ht & v & H1 & H2 & H3 & H4 & H5 & H6 & H7).
    unfold borders_site, twin, starts_at, half. rewrite H1, Hh. simpl. split; [done|]. split; [done|]. eauto 10. }
  split; [split; [apply HN|]|intros H; apply HN, H].
  destruct (s_hedges s !! f) as [g|] eqn:Hg; [|done]. simpl. intros Hp.
  destruct (d_prev _ _ _ _ _ _ _ _ HD f g e Hg Hp) as (h & H1 & H2). by rewrite H1.
Qed.
(* an edge has no next only while its end is still a breakpoint of the beach line or after
   the sweep goes on to infinity *)
Lemma next_none s idx hist e : runs s idx hist -> e < length (s_hedges s) -> next A s e = None ->
  exists t h b, twin A s e = Some t /\ half A s t = Some h /\ h_origin h = OBp b.
Proof.
  intros HR He Hn. apply lookup_lt_is_Some in He as [h Hh]. unfold next, half in Hn. rewrite Hh in Hn. simpl in Hn.
  destruct (d_next_none _ _ _ _ _ _ _ _ (runs_dcel _ _ _ HR) e h Hh Hn) as (t & ht & b & H1 & H2 & H3).
  exists t, ht, b. unfold twin, half. rewrite Hh, H2. auto.
Qed.
Lemma vertex_edges s idx hist v : runs s idx hist -> v ∈ s_vset s ->
  length (connected A s v) = 3 /\ NoDup (connected A s v) /\ forall e, e ∈ connected A s v <-> starts_at A s e v.
Proof.
  intros HR Hv. pose proof (runs_dcel _ _ _ HR) as HD. unfold connected.
  destruct (d_conn _ _ _ _ _ _ _ _ HD v Hv) as (w & Hw & (a & b & c & pa & pb & pc & x & y & r & e1 & e2 & e3 & HP & HN & _ & O1 & O2 & O3 & _)).
  rewrite Hw. split; [by rewrite HP|]. split; [by rewrite HP|]. intros e. split.
  - rewrite HP. intros He. assert (exists p q, out (s_hedges s) e v p q) as (p & q & h & f & g & H1 & H2 & _).
    { apply elem_of_cons in He as [->|He]; [eauto|]. apply elem_of_cons in He as [->|He]; [eauto|]. apply elem_of_list_singleton in He as ->. eauto. }
    exists h. done.
  - intros (h & Hh & Ho). destruct (d_vert _ _ _ _ _ _ _ _ HD e h v Hh Ho) as (_ & w' & Hw' & Hin). congruence.
Qed.
(* a half-edge that does not start at a vertex still starts at a breakpoint *)
Lemma vertex_known s idx hist e v : runs s idx hist -> starts_at A s e v -> v ∈ s_vset s.
Proof. intros HR (h & Hh & Ho). apply (d_vert _ _ _ _ _ _ _ _ (runs_dcel _ _ _ HR) e h v Hh Ho). Qed.

Lemma edge_count s idx hist : swept A pts corners s idx hist -> 1 <= n ->
  length (s_edges s) + 1 = n + length (s_vset s) /\ length (s_vset s) = handled_circles A hist /\ NoDup (s_edges s) /\
  length (s_hedges s) = 2 * length (s_edges s) /\
  (forall e f, twin A s e = Some f -> (e ∈ s_edges s <-> f ∉ s_edges s)).
Proof.
  intros [HR Hq] Hn. pose proof (runs_dcel _ _ _ HR) as HD.
  destruct (runs_reach _ _ _ HR) as [(Hok & -> & ->)|(t & done & HR' & ->)].
  { destruct Hok as (q & -> & HP & _). simpl in Hq. subst q. apply Permutation_nil in HP. destruct pts; simpl in *; [lia|done]. }
  pose proof (reach_facts A pts corners TO _ _ _ _ HR') as HF. pose proof (f_inv _ _ _ _ _ _ _ HF) as HI.
  pose proof (reach_done A pts corners TO _ _ _ _ HR' Hq) as HD'. pose proof (Permutation_length HD') as HL. rewrite seq_length in HL.
  split; [rewrite <- HL; apply HI|]. split; [symmetry; apply HF|]. destruct (d_edges _ _ _ _ _ _ _ _ HD) as (E1 & _ & E3).
  split; [done|]. split; [apply HD|]. intros e f. unfold twin, half. destruct (s_hedges s !! e) as [h|] eqn:Hh; [|done]. simpl. intros Ht.
  destruct (E3 e h Hh) as (f' & H1 & H2). congruence.
Qed.

Lemma first_edges_set s idx hist : swept A pts corners s idx hist -> 2 <= n ->
  forall p, p < n -> exists x e, s_points s !! p = Some x /\ p_first x = Some e /\ borders_site A s e = Some p.
Proof.
  intros [HR Hq] Hn p Hp.
  destruct (runs_reach _ _ _ HR) as [(Hok & -> & ->)|(t & done & HR' & ->)].
  { destruct Hok as (q & -> & HP & _). simpl in Hq. subst q. apply Permutation_nil in HP. destruct pts; simpl in *; [lia|done]. }
  pose proof (reach_facts A pts corners TO _ _ _ _ HR') as HF. pose proof (f_inv _ _ _ _ _ _ _ HF) as HI.
  pose proof (reach_done A pts corners TO _ _ _ _ HR' Hq) as HD'. pose proof (Permutation_length HD') as HL. rewrite seq_length in HL.
  destruct (i_first _ _ _ _ _ HI) with p as (x & e & H1 & H2). { lia. } { rewrite HD'. apply elem_of_seq. lia. }
  exists x, e. split; [done|]. split; [done|]. destruct (i_pfirst _ _ _ _ _ HI p x e H1 H2) as (h & H3 & H4).
  unfold borders_site, half. by rewrite H3.
Qed.

(* ---------- C33, the sweep's part ---------- *)
Lemma seen_app m l k : seen A m (l ++ k) = seen A m l ++ seen A m k.
Proof. unfold seen. apply omap_app. Qed.
Lemma seen_repeat_debug l k : seen A STEP_FINISHED (repeat (SAlgorithm, DEBUG, l) k) = [] /\
  seen A SWEEP_FINISHED (repeat (SAlgorithm, DEBUG, l) k) = [] /\ seen A VORONOI_FINISHED (repeat (SAlgorithm, DEBUG, l) k) = [].
Proof. induction k as [|k (I1 & I2 & I3)]; [done|]. simpl. unfold seen in *. simpl. done. Qed.
Lemma log_seen hist log : log_of A hist log -> seen A STEP_FINISHED log = map (fun i => Some (i_y i)) hist /\
  seen A SWEEP_FINISHED log = [] /\ seen A VORONOI_FINISHED log = [].
Proof.
  induction 1 as [|hist log it k _ (I1 & I2 & I3)]; [done|]. rewrite !seen_app, I1, I2, I3, map_app.
  destruct (seen_repeat_debug (Some (i_y it)) (S k)) as (J1 & J2 & J3). rewrite J1, J2, J3. done.
Qed.
Lemma runs_log s idx hist : runs s idx hist -> log_of A hist (s_log s).
Proof.
  intros HR. destruct (runs_reach _ _ _ HR) as [(Hok & -> & ->)|(t & done & HR' & ->)].
  - destruct Hok as (q & -> & _). constructor.
  - apply (reach_facts A pts corners TO _ _ _ _ HR').
Qed.
Lemma sweep_messages fuel s' : sweep A fuel pts (init_state A corners) = Val (s', tt) ->
  exists s idx hist log, swept A pts corners s idx hist /\ s_log s' = log ++ [(SAlgorithm, SWEEP_FINISHED, s_sweep s)] /\
    seen A STEP_FINISHED log = map (fun i => Some (i_y i)) hist /\ seen A SWEEP_FINISHED log = [] /\ seen A VORONOI_FINISHED log = [].
Proof.
  intros H. destruct (sweep_swept fuel s' H) as (s & idx & hist & HS & ->).
  exists s, idx, hist, (s_log s ++ [(SAlgorithm, DEBUG, s_sweep s)]). split; [done|]. split; [simpl; by rewrite <- app_assoc|].
  destruct (log_seen hist (s_log s)) as (H1 & H2 & H3); [apply (runs_log _ _ _ (proj1 HS))|].
  rewrite !seen_app, H1, H2, H3. simpl. unfold seen. simpl. rewrite app_nil_r. done.
Qed.
End Facts.
