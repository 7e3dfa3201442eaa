(* FinishLinks.v -- the half-edge structure after finish_polygon, and the walk around a cell. *)
From stdpp Require Import base list sets.
From Coq Require Import ZArith Lia.
From Verif Require Import Arith Geom Monad Tree Heapq State Sweep Finish HeapqProofs EventOrder TreeProofs TreeOps TreeSearch Beach
  SweepBase Dcel SweepInv SweepTrans SweepSite SweepCircle SweepLoop Spec SpecFinish SweepFacts FinishEdges FinishBorder FinishFacts FinishDiagram.
Local Open Scope monad_scope.

(* ---------- walking along [next] ---------- *)
Section Walk.
Context (A : Arith).
Implicit Types s : state A.

Notation follows := (SpecFinish.follows A).
Notation exists_all := (SpecFinish.exists_all A).
Notation walk := (SpecFinish.walk A).

Lemma follows_cons s e l : follows s (e :: l) <-> (forall b, head l = Some b -> next A s e = Some b) /\ follows s l.
Proof.
  split.
  - intros H. split.
    + intros b Hb. apply (H 0); [done|]. destruct l; [done|]. simpl in *. congruence.
    + intros i a b Ha Hb. by apply (H (S i)).
  - intros [H1 H2] [|i] a b; simpl.
    + intros [= <-] Hb. apply H1. destruct l; [done|]. simpl in *. congruence.
    + apply H2.
Qed.

(* soundness without NoDup: the walk does not meet the first edge again *)
Lemma loop_sound fuel s first e l : borders_loop A fuel s first e = Val l ->
  head l = Some e /\ follows s l /\ exists_all s l /\ first ∉ tail l /\ length l <= fuel /\ exists z, last l = Some z /\ (next A s z = Some first \/ next A s z = None).
Proof.
  revert e l. induction fuel as [|fuel IH]; intros e l; [done|]. cbn [borders_loop]. destruct (s_hedges s !! e) as [h|] eqn:Eh; [|done].
  assert (Hn : next A s e = h_next h) by (unfold next, half; by rewrite Eh). assert (He : e < length (s_hedges s)) by (by eapply lookup_lt_Some).
  destruct (bool_decide_reflect (h_next h = Some first)) as [E|E].
  - intros [= <-]. split; [done|]. split; [apply follows_cons; split; [done|intros ??? Hx; by rewrite lookup_nil in Hx]|]. split; [by repeat constructor|].
    split; [apply not_elem_of_nil|]. split; [simpl; lia|]. exists e. split; [done|]. left. congruence.
  - destruct (h_next h) as [m|] eqn:Em.
    + destruct (borders_loop A fuel s first m) as [r|] eqn:Er; [|done]. simpl. intros [= <-].
      destruct (IH m r Er) as (H1 & H2 & H3 & H4 & HL & z & H5 & H6). split; [done|]. split; [apply follows_cons; split; [congruence|done]|].
      split; [by constructor|]. split.
      * simpl. destruct r as [|m' r]; [done|]. simpl in *. intros [->|?]%elem_of_cons; [|done]. congruence.
      * split; [simpl; lia|]. exists z. split; [|done]. destruct r; [done|]. simpl in *. done.
    + intros [= <-]. split; [done|]. split; [apply follows_cons; split; [done|intros ??? Hx; by rewrite lookup_nil in Hx]|]. split; [by repeat constructor|].
      split; [apply not_elem_of_nil|]. split; [simpl; lia|]. exists e. split; [done|]. right. congruence.
Qed.

Lemma follows_det s l l' k : follows s l -> follows s l' -> head l = head l' -> k < length l -> k < length l' -> l !! k = l' !! k.
Proof.
  intros F1 F2 H. induction k as [|k IH]; intros L1 L2.
  - destruct l, l'; simpl in *; congruence.
  - destruct (lookup_lt_is_Some_2 l (S k) L1) as [a Ha]. destruct (lookup_lt_is_Some_2 l' (S k) L2) as [b Hb]. specialize (IH ltac:(lia) ltac:(lia)).
    destruct (lookup_lt_is_Some_2 l k ltac:(lia)) as [c Hc]. rewrite Hc in IH. symmetry in IH.
    pose proof (F1 k c a Hc Ha). pose proof (F2 k c b IH Hb). congruence.
Qed.

(* an edge met twice would be followed by the same edges, and so never by the end *)
Lemma follows_nodup s l first : follows s l -> head l = Some first -> first ∉ tail l ->
  (exists z, last l = Some z /\ (next A s z = Some first \/ next A s z = None)) -> NoDup l.
Proof.
  intros HF Hh Ht (z & Hz & Hn).
  assert (Hlast : forall i, l !! i = Some z -> S i = length l).
  { intros i Hi. destruct (decide (S i < length l)) as [Hlt|]; [|pose proof (lookup_lt_Some _ _ _ Hi); lia].
    destruct (lookup_lt_is_Some_2 l (S i) Hlt) as [b Hb]. pose proof (HF i z b Hi Hb) as E. destruct Hn as [Hn|Hn]; [|congruence].
    assert (b = first) as -> by congruence. exfalso. apply Ht. destruct l; [done|]. by eapply elem_of_list_lookup_2. }
  rewrite last_lookup in Hz.
  assert (forall k i j x, i < j -> j + k = pred (length l) -> l !! i = Some x -> l !! j = Some x -> False) as HK.
  { induction k as [|k IH]; intros i j x Hij Hjk Hi Hj.
    - assert (j = pred (length l)) by lia. subst j. assert (x = z) as -> by congruence. pose proof (Hlast i Hi). lia.
    - assert (S j < length l) as HSj by lia. destruct (lookup_lt_is_Some_2 l (S j) HSj) as [b Hb]. assert (S i < length l) as HSi by lia.
      destruct (lookup_lt_is_Some_2 l (S i) HSi) as [a Ha]. pose proof (HF _ _ _ Hj Hb). pose proof (HF _ _ _ Hi Ha). assert (a = b) as -> by congruence.
      apply (IH (S i) (S j) b); [lia|lia|done|done]. }
  apply NoDup_alt. intros i j x Hi Hj. pose proof (lookup_lt_Some _ _ _ Hi). pose proof (lookup_lt_Some _ _ _ Hj).
  destruct (Nat.lt_trichotomy i j) as [H1|[H1|H1]]; [|done|]; exfalso.
  - apply (HK (pred (length l) - j) i j x); [done|lia|done|done].
  - apply (HK (pred (length l) - i) j i x); [done|lia|done|done].
Qed.

Lemma loop_walk fuel s e l : borders_loop A fuel s e e = Val l -> walk s e l /\ length l <= fuel.
Proof.
  intros H. destruct (loop_sound _ _ _ _ _ H) as (H1 & H2 & H3 & H4 & HL & H5). split; [|done]. split; [done|]. split; [done|]. split; [done|]. split; [|done].
  by eapply follows_nodup.
Qed.
Lemma walk_unique s e l l' : walk s e l -> walk s e l' -> l = l'.
Proof.
  assert (HP : forall l l', walk s e l -> walk s e l' -> length l <= length l' -> l = l').
  { clear l l'. intros l l' (H1 & H2 & H3 & H4 & z & H5 & H6) (G1 & G2 & G3 & G4 & y & G5 & G6) HL.
    destruct (decide (length l = length l')) as [E|E].
    - apply list_eq_same_length with (n := length l); [done|done|]. intros i x y' Hi Hx Hy. rewrite (follows_det s l l' i H2 G2) in Hx; [congruence|congruence|done|lia].
    - exfalso. rewrite last_lookup in H5. assert (Hl : 0 < length l) by (destruct l; simpl in *; [done|lia]). assert (Hp : pred (length l) < length l') by lia.
      pose proof (follows_det s l l' (pred (length l)) H2 G2 ltac:(congruence) ltac:(lia) Hp) as Ed. rewrite H5 in Ed. symmetry in Ed.
      destruct (lookup_lt_is_Some_2 l' (length l)) as [b Hb]; [lia|]. replace (length l) with (S (pred (length l))) in Hb by lia. pose proof (G2 _ _ _ Ed Hb) as Hn.
      destruct H6 as [H6|H6]; [|congruence]. assert (b = e) as -> by congruence. assert (l' !! 0 = Some e) as H0 by (destruct l'; simpl in *; congruence).
      pose proof (NoDup_lookup l' 0 _ e G4 H0 Hb). lia. }
  intros H1 H2. destruct (Nat.le_ge_cases (length l) (length l')); [by apply HP|symmetry; by apply HP].
Qed.
Lemma loop_complete s first l fuel : forall e, head l = Some e -> follows s l -> exists_all s l -> first ∉ tail l ->
  (exists z, last l = Some z /\ (next A s z = Some first \/ next A s z = None)) -> length l <= fuel -> borders_loop A fuel s first e = Val l.
Proof.
  revert fuel. induction l as [|a l IH]; intros fuel e He HF HE HT (z & Hz & Hn) Hl; [done|]. injection He as ->. destruct fuel as [|fuel]; [simpl in Hl; lia|].
  cbn [borders_loop]. apply Forall_cons in HE as [HE1 HE2]. destruct (lookup_lt_is_Some_2 _ _ HE1) as [h Hh]. rewrite Hh.
  assert (Hnx : next A s e = h_next h) by (unfold next, half; by rewrite Hh). apply follows_cons in HF as [F1 F2].
  destruct l as [|b l].
  - simpl in Hz. injection Hz as ->. destruct Hn as [Hn|Hn]; rewrite Hnx in Hn; rewrite Hn; [by rewrite bool_decide_true|]. rewrite bool_decide_false by done. done.
  - specialize (F1 b eq_refl). rewrite Hnx in F1. rewrite F1. simpl in HT. rewrite bool_decide_false.
    2:{ intros [= ->]. apply HT. by left. }
    rewrite (IH fuel b); [done|done|done|done| | |simpl in *; lia].
    + intros Hin. apply HT. by right.
    + exists z. split; [|done]. exact Hz.
Qed.
Lemma walk_loop fuel s e l : walk s e l -> length l <= fuel -> borders_loop A fuel s e e = Val l.
Proof.
  intros (H1 & H2 & H3 & H4 & H5) HL. apply loop_complete; try done. destruct l as [|a l]; [done|]. simpl in *. injection H1 as ->. by apply NoDup_cons in H4 as [? _].
Qed.

(* ---------- a structure in which next can be undone: every walk comes back ---------- *)
Lemma closed_walk s (P : nat -> Prop) : (forall e, P e -> e < length (s_hedges s)) ->
  (forall e, P e -> exists f, next A s e = Some f /\ P f /\ prev A s f = Some e) ->
  forall e, P e -> exists l z, walk s e l /\ last l = Some z /\ next A s z = Some e /\ Forall P l.
Proof.
  intros HL HN e He.
  (* paths of every length, or a closed one *)
  assert (HP : forall k, (exists l, length l = S k /\ head l = Some e /\ follows s l /\ Forall P l /\ NoDup l) \/
    (exists l z, walk s e l /\ last l = Some z /\ next A s z = Some e /\ Forall P l)).
  { induction k as [|k IH].
    - left. exists [e]. split; [done|]. split; [done|]. split; [apply follows_cons; split; [done|intros ??? Hx; by rewrite lookup_nil in Hx]|]. split; [by constructor|]. apply NoDup_singleton.
    - destruct IH as [(l & L1 & L2 & L3 & L4 & L5)|IH]; [|by right].
      destruct (last l) as [z|] eqn:Ez. 2:{ apply last_None in Ez. by subst l. }
      pose proof Ez as Ez'. rewrite last_lookup, L1 in Ez'. simpl in Ez'. assert (Pz : P z). { rewrite Forall_forall in L4. apply L4. by eapply elem_of_list_lookup_2. }
      destruct (HN z Pz) as (f & F1 & F2 & F3). destruct (decide (f ∈ l)) as [Hin|Hout].
      + right. exists l, z. assert (f = e) as ->.
        { apply elem_of_list_lookup_1 in Hin as [[|i] Hi]; [destruct l; simpl in *; congruence|]. exfalso.
          assert (Hlt := lookup_lt_Some _ _ _ Hi). destruct (lookup_lt_is_Some_2 l i) as [y Hy]; [lia|]. pose proof (L3 i y f Hy Hi) as Hyf.
          assert (Py : P y). { rewrite Forall_forall in L4. apply L4. by eapply elem_of_list_lookup_2. }
          destruct (HN y Py) as (f' & G1 & _ & G3). assert (f' = f) as -> by congruence. assert (y = z) as -> by congruence.
          pose proof (NoDup_lookup l i k z L5 Hy Ez'). lia. }
        split; [|done]. split; [done|]. split; [done|]. split; [eapply Forall_impl; [exact L4|apply HL]|]. split; [done|]. eauto.
      + left. exists (l ++ [f]). split; [rewrite app_length; simpl; lia|]. split; [destruct l; [done|]; by simpl in *|]. split.
        * intros i a b Ha Hb. apply lookup_app_Some in Hb as [Hb|[Hi Hb]].
          -- rewrite lookup_app_l in Ha; [by eapply L3|]. apply lookup_lt_Some in Hb. lia.
          -- destruct (S i - length l) as [|j] eqn:Ej; [|by rewrite lookup_cons, lookup_nil in Hb]. simpl in Hb. injection Hb as <-.
             rewrite lookup_app_l in Ha by lia. assert (i = k) as -> by lia. congruence.
        * split; [apply Forall_app; split; [done|by constructor]|]. apply NoDup_app. split; [done|]. split; [|apply NoDup_singleton].
          intros x Hx Hxf%elem_of_list_singleton. by subst. }
  destruct (HP (length (s_hedges s))) as [(l & L1 & L2 & L3 & L4 & L5)|H]; [|done]. exfalso.
  assert (HS : length l <= length (seq 0 (length (s_hedges s)))).
  { apply submseteq_length, NoDup_submseteq; [done|]. intros x Hx. apply elem_of_seq. rewrite Forall_forall in L4. specialize (HL x (L4 x Hx)). lia. }
  rewrite seq_length in HS. lia.
Qed.
End Walk.

(* ---------- sorting ---------- *)
Section Sorted.
Context (A : Arith) (asym : forall a b, fltb A a b = true -> fltb A b a = false).
Fixpoint ordered {X} (key : X -> F A) (l : list X) : Prop :=
  match l with
  | [] => True
  | x :: k => match k with [] => True | y :: _ => fltb A (key y) (key x) = false end /\ ordered key k
  end.
Lemma insert_ordered {X} (key : X -> F A) x l : ordered key l -> ordered key (insert_by A key x l).
Proof.
  induction l as [|y l IH]; [done|]. intros HO. cbn [insert_by]. destruct (fltb A (key x) (key y)) eqn:E.
  - split; [by apply asym|done].
  - destruct HO as [H1 H2]. specialize (IH H2). destruct l as [|z l].
    + simpl. done.
    + cbn [insert_by] in *. destruct (fltb A (key x) (key z)); [split; done|]. split; [done|]. exact IH.
Qed.
Lemma sort_ordered {X} (key : X -> F A) l : ordered key (sort_by A key l).
Proof.
  unfold sort_by. assert (forall acc, ordered key acc -> ordered key (fold_left (fun acc x => insert_by A key x acc) l acc)) as H; [|by apply H].
  induction l as [|x l IH]; intros acc Ha; [done|]. simpl. apply IH. by apply insert_ordered.
Qed.
Lemma ordered_look {X} (key : X -> F A) l i a b : ordered key l -> l !! i = Some a -> l !! S i = Some b -> fltb A (key b) (key a) = false.
Proof.
  revert i. induction l as [|x l IH]; intros i HO; [done|]. destruct HO as [H1 H2]. destruct i as [|i]; simpl.
  - intros [= <-] Hb. destruct l; [done|]. simpl in Hb. by injection Hb as <-.
  - by apply IH.
Qed.
End Sorted.

Section Links.
Context (A : Arith) (pts corners : list (pt A)).
Notation St := (state A).
Implicit Types s : St.
Notation n := (length pts).
Notation k0 := (length corners).
Context (TO : TotalOrder A) (MO : MidOK A (fst <$> pts)) (CC : forall p q, create_circle A p q p = Val None).
Context (poly : polygon A) (Good : pt A -> pt A -> pt A -> Prop) (OnPoly : pt A -> Prop).
Notation ring := (ring A poly).
Notation clipped := (clipped A poly Good OnPoly).
Notation ended := (ended A pts corners).
Notation ringed := (ringed A poly).

Section One.
Context s s1 r dead p s2 (HE : ended s) (HC : clipped s s1 r dead) (Hn : 2 <= length (ring s1)) (HR : ringed (set_edges r s1) p s2) x0 (Hp : s_points s1 !! p = Some x0).
Notation ed j := (ed A s1 j).
Notation te j := (te A s1 j).
Notation V j := (V (ring s1) j).
Notation m := (length (ring s1)).
Let HF := c_fin _ _ _ _ _ _ _ _ HC.
Let ST : start A (set_edges r s1) (ring s1) := fin_start A poly Good OnPoly (set_edges r s1) dead HF Hn.
Let HB : bord A (set_edges r s1) (ring s1) (Some p) m s2 := HR.

Lemma old_half e h : s_hedges s1 !! e = Some h -> exists h', s_hedges s2 !! e = Some h' /\ h_inc h' = h_inc h /\ h_twin h' = h_twin h /\ h_origin h' = h_origin h.
Proof. apply (b_old _ _ _ _ _ _ HB). Qed.
Lemma old_located v xy : located A s1 v xy -> located A s2 v xy.
Proof. intros (w & H1 & H2). destruct (b_conn _ _ _ _ _ _ HB v w H1) as (w' & H3 & H4 & _). exists w'. split; [done|congruence]. Qed.

(* the border edges *)
Lemma border_half j : j < m -> exists q x, cur A (set_edges r s1) (ring s1) (Some p) (S j) = Some q /\ s_points s2 !! q = Some x /\
  starts_at A s2 (ed j) (V j) /\ starts_at A s2 (te j) (V (S j)) /\ twin A s2 (ed j) = Some (te j) /\ twin A s2 (te j) = Some (ed j) /\
  borders_site A s2 (ed j) = Some q /\ borders_site A s2 (te j) = None /\ ed j ∈ connected A s2 (V j) /\ te j ∈ connected A s2 (V (S j)).
Proof.
  intros Hj. destruct (b_new _ _ _ _ _ _ HB j Hj) as (h & t & N1 & N2 & N3 & N4 & N5 & N6 & N7 & N8 & N9 & N10).
  change (FinishBorder.ed A (set_edges r s1) j) with (ed j) in *. change (FinishBorder.te A (set_edges r s1) j) with (te j) in *.
  destruct (cur_some A (set_edges r s1) (ring s1) ST (Some p) (S j) p x0 ltac:(lia) eq_refl Hp) as (q & y & C1 & C2).
  destruct (b_pts _ _ _ _ _ _ HB q y C2) as (y' & C3 & _). exists q, y'. split; [done|]. split; [done|].
  split; [by exists h|]. split; [by exists t|]. unfold twin, borders_site, half. rewrite N1, N2. simpl.
  split; [done|]. split; [done|]. split; [congruence|]. split; [done|].
  assert (HVc : forall k, k <= m -> exists w0 w, s_verts s1 !! V k = Some w0 /\ s_verts s2 !! V k = Some w /\ v_conn w = v_conn w0 ++ extra A (set_edges r s1) (ring s1) m (V k)).
  { intros k Hk. destruct (st_vs _ _ _ ST (V k)) as [w0 W0]; [by apply (V_in A (set_edges r s1))|]. destruct (b_conn _ _ _ _ _ _ HB (V k) w0 W0) as (w & W1 & _ & W2). eauto 10. }
  split.
  - destruct (HVc j) as (w0 & w & W0 & W1 & W2); [lia|]. unfold connected. rewrite W1, W2. apply elem_of_app. right. rewrite (extra_in A (set_edges r s1) (ring s1) ST) by done.
    destruct j as [|j].
    + destruct (Nat.ltb_spec 0 m); [|lia]. rewrite elem_of_app. left. by left.
    + destruct (Nat.ltb_spec (S j) m); [|lia]. rewrite elem_of_app. right. by left.
  - destruct (HVc (S j)) as (w0 & w & W0 & W1 & W2); [lia|]. unfold connected. rewrite W1, W2. apply elem_of_app. right.
    destruct (decide (S j = m)) as [E|E].
    + rewrite E, (V_n A (set_edges r s1) (ring s1) ST), (extra_in A (set_edges r s1) (ring s1) ST) by lia. rewrite Nat.eqb_refl. rewrite elem_of_app. right.
      replace (m - 1) with j by lia. by left.
    + rewrite (extra_in A (set_edges r s1) (ring s1) ST) by lia. destruct (Nat.leb_spec (S j) m); [|lia]. rewrite elem_of_app. left. by left.
Qed.

Definition live e : Prop := kept A s1 r e \/ exists j, j < m /\ e = ed j.

(* no edge that was dropped has an end at a vertex inside the polygon *)
Definition none_lost : Prop := forall e t x v xy, e ∈ s_edges s -> e ∉ r -> twin A s1 e = Some t -> x = e \/ x = t -> starts_at A s1 x v ->
  v ∈ s_vset s1 -> located A s1 v xy -> inside A (pg_points A poly) xy <> Val true.
Lemma lost_clean : none_lost -> clean A poly (s_hedges s1) (s_verts s1) (s_vset s1) dead.
Proof.
  intros HN x h f g Hx Hh Hf Hg. apply (c_dead _ _ _ _ _ _ _ _ HC) in Hx as (e & He & Her & Hxe).
  assert (HA : forall y k t, y = e \/ y = t -> twin A s1 e = Some t -> s_hedges s1 !! y = Some k -> ~ at_inside A poly (s_verts s1) (s_vset s1) (h_origin k)).
  { intros y k t Hy Ht Hk (v & w & xy & O1 & O2 & O3 & O4 & O5). by apply (HN e t y v xy He Her Ht Hy); [exists k|done|exists w|]. }
  destruct Hxe as [->|Hxe].
  - assert (Ht : twin A s1 e = Some f) by (unfold twin, half; by rewrite Hh). split; [by apply (HA e h f); [left| |]|by apply (HA f g f); [right| |]].
  - apply twin_is in Hxe. apply (clipped_twin A poly Good OnPoly _ _ _ _ _ _ HC) in Hxe. pose proof Hxe as Hxe'. apply twin_is in Hxe' as (he & E1 & E2).
    destruct (f_twin _ _ _ _ _ _ _ _ _ _ _ HF e he E1) as (f' & g' & p' & q' & T1 & T2 & T3 & T4 & _). assert (f' = x) as -> by congruence.
    assert (g' = h) as -> by congruence. assert (f = e) as -> by congruence. split; [by apply (HA x h x); [right| |]|by apply (HA e g x); [left| |]].
Qed.

Lemma kept_lt e : kept A s1 r e -> e < length (s_hedges s1).
Proof.
  intros HK. destruct (clip_result A pts corners TO MO CC poly Good OnPoly s s1 r dead HE HC) as (_ & _ & H & _). destruct (H e HK) as (v & xy & (h & Hh & _) & _).
  unfold half in Hh. by eapply lookup_lt_Some.
Qed.
Lemma live_lt e : live e -> e < length (s_hedges s2).
Proof.
  pose proof (b_len _ _ _ _ _ _ HB) as HL. cbn [set_edges s_hedges] in HL. intros [HK|(j & Hj & ->)]; rewrite HL; [apply kept_lt in HK; lia|].
  unfold FinishBorder.ed. lia.
Qed.
Lemma kept_twin e t : kept A s1 r e -> twin A s1 e = Some t -> kept A s1 r t.
Proof.
  intros HK Ht. destruct HK as [He|(e' & He' & Ht')]; [right; eauto|].
  apply twin_is in Ht' as (he & E1 & E2). destruct (f_twin _ _ _ _ _ _ _ _ _ _ _ HF e' he E1) as (f' & g' & p' & q' & T1 & T2 & T3 & T4 & _).
  unfold twin, half in Ht. assert (f' = e) as -> by congruence. rewrite T3 in Ht. simpl in Ht. left. congruence.
Qed.

(* the half-edge that starts at a border vertex is the one its vertex lists *)
Lemma chord_of e v : kept A s1 r e -> starts_at A s1 e v -> v ∈ s_pverts s1 -> v ∈ ring s1 /\ chord A (set_edges r s1) v = Some e.
Proof.
  intros HK (h & Hh & Ho) Hv. unfold half in Hh. assert (Hnd : e ∉ dead) by (apply (kept_dead A pts corners TO MO CC poly Good OnPoly s s1 r dead e HE HC); [by apply kept_lt|done]).
  destruct (f_vx _ _ _ _ _ _ _ _ _ _ _ HF e h v Hh Ho) as (w & W1 & W2 & _). specialize (W2 Hnd).
  destruct (clip_result A pts corners TO MO CC poly Good OnPoly s s1 r dead HE HC) as (_ & _ & H & _). destruct (H e HK) as (v' & xy & (h' & Hh' & Ho') & (w' & W3 & W4) & _).
  unfold half in Hh'. assert (v' = v) as -> by congruence. assert (w' = w) as -> by congruence. split; [apply in_ring; eauto|].
  destruct (f_pv _ _ _ _ _ _ _ _ _ _ _ HF v Hv) as (w2 & P1 & _ & P2). assert (w2 = w) as -> by congruence.
  unfold chord, conn0. cbn [set_edges s_verts]. rewrite W1. destruct P2 as [E|(e2 & h2 & E & _)]; rewrite E in W2 |- *; [by apply elem_of_nil in W2|].
  apply elem_of_list_singleton in W2 as ->. done.
Qed.
Lemma chord_is v c : v ∈ ring s1 -> chord A (set_edges r s1) v = Some c -> v ∈ s_pverts s1 /\ starts_at A s1 c v /\ kept A s1 r c.
Proof.
  intros Hv Hc. apply in_ring in Hv as [Hv (w & xy & Hw & Hxy)]. split; [done|]. destruct (f_pv _ _ _ _ _ _ _ _ _ _ _ HF v Hv) as (w' & P1 & _ & P2).
  assert (w' = w) as -> by congruence. unfold chord, conn0 in Hc. cbn [set_edges s_verts] in Hc. rewrite Hw in Hc.
  destruct P2 as [E|(e & h & E & P3 & P4 & P5)]; rewrite E in Hc; [done|]. injection Hc as <-. split; [by exists h|].
  apply (kept_dead A pts corners TO MO CC poly Good OnPoly s s1 r dead e HE HC); [by eapply lookup_lt_Some|done].
Qed.

Lemma live_next e : none_lost -> live e -> exists f t v, next A s2 e = Some f /\ live f /\ prev A s2 f = Some e /\
  twin A s2 e = Some t /\ starts_at A s2 t v /\ starts_at A s2 f v.
Proof.
  intros HN HLe. pose proof (lost_clean HN) as Hcl. clear HN.
  assert (New : forall j, j < m -> exists h t, s_hedges s2 !! ed j = Some h /\ s_hedges s2 !! te j = Some t /\
    h_origin h = OVx (V j) /\ h_origin t = OVx (V (S j)) /\
    h_twin h = Some (te j) /\ h_next h = Some (target A (set_edges r s1) (ring s1) m j) /\ h_prev h = ptarget A (set_edges r s1) (ring s1) m j).
  { intros j Hj. destruct (b_new _ _ _ _ _ _ HB j Hj) as (h & t & N1 & N2 & N3 & N4 & N5 & N6 & N7 & N8 & N9 & N10). exists h, t. done. }
  destruct HLe as [HK|(j & Hj & ->)].
  - (* a clipped edge *)
    destruct (lookup_lt_is_Some_2 _ _ (kept_lt e HK)) as [h Hh]. destruct (f_twin _ _ _ _ _ _ _ _ _ _ _ HF e h Hh) as (t & ht & a & b & T1 & T2 & T3 & T4 & _).
    assert (Ht : twin A s1 e = Some t) by (unfold twin, half; by rewrite Hh). pose proof (kept_twin e t HK Ht) as HKt.
    assert (Hnd : e ∉ dead) by (apply (kept_dead A pts corners TO MO CC poly Good OnPoly s s1 r dead e HE HC); [by apply kept_lt|done]).
    destruct (clip_result A pts corners TO MO CC poly Good OnPoly s s1 r dead HE HC) as (_ & _ & Hends & Hnext & _). destruct (Hends t HKt) as (v & xy & V1 & V2 & V3 & V4).
    destruct (old_half e h Hh) as (h' & H1 & H2 & H3 & H4). destruct (old_half t ht T3) as (ht' & H1' & H2' & H3' & H4').
    destruct V1 as (ht0 & Ht0 & Ho). unfold half in Ht0. assert (ht0 = ht) as -> by congruence.
    destruct V4 as [Hv|[Hv Hin]].
    + destruct (chord_of t v HKt) as [R1 R2]; [by exists ht|done|]. destruct (in_V (ring s1) v R1) as (j & Hj & ->).
      assert (Htw : tw0 A (set_edges r s1) t = Some e) by (unfold tw0; cbn [set_edges s_hedges]; by rewrite T3).
      destruct (b_in _ _ _ _ _ _ HB j t e Hj R2 Htw) as (h2 & E1 & E2). destruct (New j Hj) as (hj & tj & N1 & N2 & N3 & N4 & N5 & N6 & N7).
      exists (ed j), t, (V j). split; [unfold next, half; by rewrite E1|]. split; [right; eauto|]. split.
      { unfold prev, half. rewrite N1. simpl. rewrite N7. unfold ptarget. by rewrite R2. }
      split; [unfold twin, half; rewrite H1; simpl; congruence|]. split; [exists ht'; split; [done|congruence]|exists hj; done].
    + assert (Hat : at_inside A poly (s_verts s1) (s_vset s1) (h_origin ht)). { destruct V2 as (w & W1 & W2). exists v, w, xy. done. }
      destruct (h_next h) as [f|] eqn:Ef.
      2:{ exfalso. by apply (f_end _ _ _ _ _ _ _ _ _ _ _ HF Hcl e h t ht). }
      destruct (f_next _ _ _ _ _ _ _ _ _ _ _ HF e h f Hh Ef) as (g & G1 & G2 & G3). destruct (G3 Hnd) as [G4 G5].
      pose proof (f_meet _ _ _ _ _ _ _ _ _ _ _ HF Hcl e h f g t ht Hnd Hh Ef G1 T1 T3 (or_intror Hat)) as Heq.
      assert (Hvr : v ∉ ring s1). { intros [HH _]%in_ring. by destruct (f_vs _ _ _ _ _ _ _ _ _ _ _ HF v Hv). }
      destruct (b_keep _ _ _ _ _ _ HB e h Hh) as (h2 & E1 & E2).
      { intros j c Hj Hc Htw. assert (Hjr : V j ∈ ring s1) by (apply (V_in A (set_edges r s1) (ring s1) ST); lia).
        destruct (chord_is _ _ Hjr Hc) as (_ & (hc & Hc1 & Hc2) & _). unfold half in Hc1. unfold tw0 in Htw. cbn [set_edges s_hedges] in Htw. rewrite Hc1 in Htw. simpl in Htw.
        destruct (f_twin _ _ _ _ _ _ _ _ _ _ _ HF c hc Hc1) as (f' & g' & p' & q' & U1 & U2 & U3 & U4 & _). assert (f' = e) as -> by congruence.
        assert (g' = h) as -> by congruence. assert (c = t) as -> by congruence. assert (hc = ht) as -> by congruence. assert (V j = v) as E by congruence. by rewrite E in Hjr. }
      destruct (b_pkeep _ _ _ _ _ _ HB f g G1) as (g2 & E3 & E4).
      { intros j Hj Hc. assert (Hjr : V (S j) ∈ ring s1) by (apply (V_in A (set_edges r s1) (ring s1) ST); lia).
        destruct (chord_is _ _ Hjr Hc) as (_ & (hc & Hc1 & Hc2) & _). unfold half in Hc1. assert (hc = g) as -> by congruence. assert (V (S j) = v) as E by congruence. by rewrite E in Hjr. }
      destruct (old_half f g G1) as (g3 & K1 & K2 & K3 & K4). assert (g3 = g2) as -> by congruence. assert (h2 = h') as -> by congruence.
      exists f, t, v. unfold next, prev, twin, half. rewrite H1, E3. simpl. split; [congruence|]. split.
      { left. apply (kept_dead A pts corners TO MO CC poly Good OnPoly s s1 r dead f HE HC); [by eapply lookup_lt_Some|done]. }
      split; [congruence|]. split; [congruence|]. split; [exists ht'; split; [done|congruence]|exists g2; split; [done|congruence]].
  - (* a border edge *)
    destruct (New j Hj) as (hj & tj & N1 & N2 & N3 & N4 & N5 & N6 & N7).
    assert (Hx : exists f, h_next hj = Some f /\ live f /\ prev A s2 f = Some (ed j) /\ starts_at A s2 f (V (S j))).
    { exists (target A (set_edges r s1) (ring s1) m j). split; [done|]. unfold target. assert (Hjr : V (S j) ∈ ring s1) by (apply (V_in A (set_edges r s1) (ring s1) ST); lia).
      destruct (chord A (set_edges r s1) (V (S j))) as [c|] eqn:Ec.
      - destruct (chord_is _ _ Hjr Ec) as (_ & (hc & Hc1 & Hc2) & Hk). split; [by left|]. destruct (b_pin _ _ _ _ _ _ HB j c Hj Ec) as (h & E1 & E2).
        unfold half in Hc1. destruct (old_half c hc Hc1) as (h' & K1 & K2 & K3 & K4). assert (h' = h) as -> by congruence.
        split; [unfold prev, half; by rewrite E1|]. exists h. split; [done|congruence].
      - change (FinishBorder.ed A (set_edges r s1)) with (FinishBorder.ed A s1). change (FinishBorder.te A (set_edges r s1)) with (FinishBorder.te A s1).
        destruct (Nat.eqb_spec (S j) m) as [E|E].
        + destruct (New 0) as (h0 & t0 & M1 & M2 & M3 & M4 & M5 & M6 & M7); [lia|]. split; [right; exists 0; split; [lia|done]|].
          rewrite E, (V_n A (set_edges r s1) (ring s1) ST) in Ec |- *. split; [|by exists h0].
          unfold prev, half. rewrite M1. simpl. rewrite M7. unfold ptarget. rewrite Ec, Nat.eqb_refl. f_equal. unfold FinishBorder.ed. cbn [set_edges s_hedges]. lia.
        + destruct (Nat.ltb_spec (S j) m); [|lia]. destruct (New (S j)) as (h0 & t0 & M1 & M2 & M3 & M4 & M5 & M6 & M7); [lia|].
          split; [right; exists (S j); split; [lia|done]|]. split; [|by exists h0]. unfold prev, half. rewrite M1. simpl. rewrite M7. unfold ptarget. rewrite Ec. done. }
    destruct Hx as (f & F1 & F2 & F3 & F4). exists f, (te j), (V (S j)). split; [unfold next, half; by rewrite N1|]. split; [done|]. split; [done|].
    split; [unfold twin, half; by rewrite N1|]. split; [by exists tj|done].
Qed.
End One.
End Links.
