(* Beach.v -- the beach line as a list: arcs alternating with breakpoints that carry the
   sites of the arcs on either side. *)
From stdpp Require Import base list sets.
From Coq Require Import Lia.
From Verif Require Import TreeProofs TreeOps TreeSearch.

(* ---------- contexts of leaves in full trees ---------- *)
Lemma full_odd t : full t -> Nat.Odd (length (inord t)).
Proof.
  induction t as [|l IHl n r IHr]; [done|]. intros Hf.
  destruct (full_node _ _ _ Hf) as [[-> ->]|(Fl & Fr & _)]; [exists 0; done|].
  simpl. rewrite app_length. simpl. destruct (IHl Fl) as [a ->], (IHr Fr) as [b ->]. exists (a + b + 1). lia.
Qed.
Lemma full_ctx_even C : full_ctx C -> Nat.Even (length (ctx_l C)) /\ Nat.Even (length (ctx_r C)).
Proof.
  induction C as [|C IH n r|l n C IH]; simpl.
  - intros _. split; exists 0; done.
  - intros [Fr FC]. destruct (IH FC) as [H1 [b Hb]]. split; [done|]. rewrite app_length, Hb.
    destruct (full_odd _ Fr) as [a ->]. exists (a + b + 1). lia.
  - intros [Fl FC]. destruct (IH FC) as [[b Hb] H2]. split; [|done]. rewrite !app_length, Hb. simpl.
    destruct (full_odd _ Fl) as [a ->]. exists (a + b + 1). lia.
Qed.

Lemma in_plug t n : n ∈ inord t -> exists C l r, t = plug C (T l n r).
Proof.
  enough (forall D, n ∈ inord t -> exists C l r, plug D t = plug C (T l n r)) as H by apply (H Top).
  induction t as [|l IHl m r IHr]; [simpl; set_solver|]. intros D Hn. simpl in Hn.
  apply elem_of_app in Hn as [Hn|Hn]; [|apply elem_of_cons in Hn as [->|Hn]].
  - apply (IHl (CL D m r) Hn).
  - eauto.
  - apply (IHr (CR l m D) Hn).
Qed.

Lemma nodup_pos {Y} (l1 l2 k1 k2 : list Y) x : NoDup (l1 ++ x :: l2) -> l1 ++ x :: l2 = k1 ++ x :: k2 -> l1 = k1 /\ l2 = k2.
Proof.
  revert k1. induction l1 as [|a l1 IH]; intros [|b k1] Hnd E; simpl in *.
  - by injection E as ->.
  - injection E as -> ->. apply NoDup_cons in Hnd as [Hn _]. set_solver.
  - injection E as -> <-. apply NoDup_cons in Hnd as [Hn _]. set_solver.
  - injection E as -> E. apply NoDup_cons in Hnd as [_ Hnd]. destruct (IH k1 Hnd E) as [-> ->]. done.
Qed.

(* a node at an even position is a leaf *)
Lemma even_leaf t n l1 l2 : full t -> NoDup (inord t) -> inord t = l1 ++ n :: l2 -> Nat.Even (length l1) ->
  exists C, t = plug C (leaf n) /\ full_ctx C /\ ctx_l C = l1 /\ ctx_r C = l2.
Proof.
  intros Hf Hnd E Hev. destruct (in_plug t n) as (C & l & r & ->).
  { rewrite E. set_solver. }
  destruct (full_plug_inv C _ Hf ltac:(done)) as [HC Hlr].
  rewrite inord_plug in Hnd, E. simpl in Hnd, E.
  replace (ctx_l C ++ (inord l ++ n :: inord r) ++ ctx_r C)
    with ((ctx_l C ++ inord l) ++ n :: (inord r ++ ctx_r C)) in Hnd, E
    by (rewrite <- !app_assoc; done).
  destruct (nodup_pos _ _ _ _ _ Hnd E) as [<- <-].
  destruct (full_node _ _ _ Hlr) as [[-> ->]|(Fl & Fr & _)].
  - exists C. simpl. rewrite app_nil_r. done.
  - exfalso. rewrite app_length in Hev. destruct (full_ctx_even _ HC) as [[a Ha] _].
    destruct (full_odd _ Fl) as [b Hb]. destruct Hev as [c Hc]. lia.
Qed.

(* neighbours *)
Lemma ctx_r_shape C : full_ctx C ->
  (ctx_r C = [] /\ ctx_succ C = None) \/ (exists b m R, ctx_r C = b :: m :: R /\ ctx_succ C = Some m).
Proof.
  induction C as [|C IH n r|l n C IH]; simpl; [auto| |tauto].
  intros [Fr FC]. right. destruct r as [|r1 k r2]; [done|].
  destruct (inord_first (T r1 k r2) k) as [q ->]; [done|]. eauto.
Qed.
Lemma ctx_l_shape C : full_ctx C ->
  (ctx_l C = [] /\ ctx_pred C = None) \/ (exists L m b, ctx_l C = L ++ [m; b] /\ ctx_pred C = Some m).
Proof.
  induction C as [|C IH n r|l n C IH]; simpl; [auto|tauto|].
  intros [Fl FC]. right. destruct l as [|l1 k l2]; [done|].
  destruct (inord_last (T l1 k l2) k) as [q ->]; [done|]. exists (ctx_l C ++ q), (last_leaf (T l1 k l2) k), n.
  rewrite <- !app_assoc. done.
Qed.

Lemma internals_first t : full t -> forall n r, inord t = n :: r -> match r with [] => internals t = [] | b :: _ => exists q, internals t = b :: q end.
Proof.
  induction t as [|l IHl m k _]; [done|]. intros Hf n r E.
  destruct (full_node _ _ _ Hf) as [[-> ->]|(Fl & Fr & Nl & Nr)].
  { simpl in E. injection E as <- <-. done. }
  rewrite internals_T by done. simpl in E.
  destruct (inord l) as [|x q] eqn:El; [destruct l as [|l1 ? ?]; [done|simpl in El; by destruct (inord l1)]|].
  simpl in E. injection E as -> <-. specialize (IHl Fl n q eq_refl). destruct q as [|b q]; simpl.
  - rewrite IHl. simpl. eauto.
  - destruct IHl as [q' ->]. simpl. eauto.
Qed.

(* the internal node right after a leaf *)
Lemma after_ctx C n : full_ctx C -> NoDup (inord (plug C (leaf n))) ->
  match ctx_r C with [] => after (plug C (leaf n)) n = [] | b :: _ => exists q, after (plug C (leaf n)) n = b :: q end.
Proof.
  assert (forall t A0, full t -> full_ctx C -> NoDup (inord (plug C t)) -> n ∈ leaves t -> after t n = A0 ->
     match A0 with [] => match ctx_r C with [] => after (plug C t) n = [] | b :: _ => exists q, after (plug C t) n = b :: q end
     | b :: _ => exists q, after (plug C t) n = b :: q end) as H.
  { induction C as [|C IH m r|l m C IH]; intros t A0 Ft FC Hnd Hin Ha; simpl.
    - destruct A0; eauto.
    - destruct FC as [Fr FC].
      specialize (IH (T t m r) (A0 ++ m :: internals r)).
      feed specialize IH; auto.
      { simpl; auto. }
      { rewrite leaves_T by (by apply full_nonempty). set_solver. }
      { rewrite after_T by (by apply full_nonempty). rewrite decide_True by done. by rewrite Ha. }
      destruct A0; simpl in IH; eauto.
    - destruct FC as [Fl FC].
      specialize (IH (T l m t) A0). feed specialize IH; auto.
      { simpl; auto. }
      { rewrite leaves_T by (by apply full_nonempty). set_solver. }
      { rewrite after_T by (by apply full_nonempty). rewrite decide_False; [done|].
        intros Hl. simpl in Hnd. rewrite inord_plug in Hnd. apply NoDup_app in Hnd as (_ & _ & Hnd).
        apply NoDup_app in Hnd as (Hnd & _). destruct (NoDup_T _ _ _ Hnd) as (_ & _ & _ & _ & Nd).
        apply (Nd n); by apply leaves_inord. } }
  intros FC Hnd. apply (H (leaf n) []); auto; [apply full_leaf|simpl; set_solver].
Qed.

(* ---------- labelled chains ---------- *)
Section Chain.
Context (site : nat -> option nat) (label : nat -> option (nat * nat)).

Inductive chain : list nat -> Prop :=
| chain_one n p : site n = Some p -> chain [n]
| chain_cons n b m L p q : site n = Some p -> label b = Some (p, q) -> site m = Some q -> p <> q ->
    chain (m :: L) -> chain (n :: b :: m :: L).

Lemma chain_head n L : chain (n :: L) -> exists p, site n = Some p.
Proof. intros H. inversion H; eauto. Qed.

Lemma chain_join L1 n L2 : chain (L1 ++ [n]) -> chain (n :: L2) -> chain (L1 ++ n :: L2).
Proof.
  intros H H2. remember (L1 ++ [n]) as L eqn:E. revert L1 E.
  induction H as [k p Hk|k b m L p q Hk Hb Hm Hpq Hc IH]; intros L1 E.
  - destruct L1 as [|x L1]; simpl in *; [done|]. injection E as -> E. by destruct L1.
  - destruct L1 as [|x [|y L1]]; simpl in *; [done| |].
    + injection E as -> -> E. done.
    + injection E as -> -> E. specialize (IH L1 E). destruct L1 as [|z L1]; simpl in *.
      * injection E as -> ->. by econstructor.
      * injection E as -> ->. by econstructor.
Qed.
Lemma chain_head_replace n n' L p : site n = Some p -> site n' = Some p -> chain (n :: L) -> chain (n' :: L).
Proof.
  intros Hn Hn' H. inversion H; subst; [by econstructor|].
  assert (p0 = p) as -> by congruence. by econstructor.
Qed.
Lemma chain_last_replace L n n' p : site n = Some p -> site n' = Some p -> chain (L ++ [n]) -> chain (L ++ [n']).
Proof.
  intros Hn Hn' H. remember (L ++ [n]) as K eqn:E. revert L E.
  induction H as [k q Hk|k b m K p' q Hk Hb Hm Hpq Hc IH]; intros L E.
  - destruct L as [|x L]; simpl in *; [|injection E as -> E; by destruct L]. by econstructor.
  - destruct L as [|x [|y L]]; simpl in *; [done| |].
    + by injection E as -> -> E.
    + injection E as -> -> E. specialize (IH L E). destruct L as [|z L]; simpl in *.
      * injection E as -> ->. assert (q = p) as -> by congruence. econstructor; eauto.
      * injection E as -> ->. by econstructor.
Qed.
Lemma chain_odd L : chain L -> Nat.Odd (length L).
Proof. induction 1; simpl; [exists 0; done|]. simpl in IHchain. destruct IHchain as [a Ha]. exists (S a). lia. Qed.

Context (excl : forall n p, site n = Some p -> label n = None).

Lemma chain_split L1 n L2 p : site n = Some p -> chain (L1 ++ n :: L2) -> chain (L1 ++ [n]) /\ chain (n :: L2).
Proof.
  intros Hn H. remember (L1 ++ n :: L2) as L eqn:E. revert L1 E.
  induction H as [k q Hk|k b m L p' q Hk Hb Hm Hpq Hc IH]; intros L1 E.
  - destruct L1 as [|x L1]; simpl in *; [|injection E as -> E; by destruct L1].
    simplify_eq. split; by econstructor.
  - destruct L1 as [|x [|y L1]]; simpl in *.
    + injection E as -> <-. split; [by econstructor|by econstructor].
    + injection E as -> -> E. pose proof (excl _ _ Hn). congruence.
    + injection E as -> -> E. destruct (IH L1 E) as [H1 H2]. split; [|done].
      destruct L1 as [|z L1]; simpl in *; injection E as -> ->; by econstructor.
Qed.
Lemma chain_even L n l1 l2 p : chain L -> L = l1 ++ n :: l2 -> site n = Some p -> Nat.Even (length l1).
Proof.
  intros H -> Hn. destruct (chain_split _ _ _ _ Hn H) as [H1 _]. apply chain_odd in H1 as [a Ha].
  rewrite app_length in Ha. simpl in Ha. exists a. lia.
Qed.
Lemma chain_even_site L n l1 l2 : chain L -> L = l1 ++ n :: l2 -> Nat.Even (length l1) -> exists p, site n = Some p.
Proof.
  intros H. revert l1. induction H as [k q Hk|k b m L p' q Hk Hb Hm Hpq Hc IH]; intros l1 E [a Ha].
  - destruct l1 as [|x l1]; simpl in *; [|injection E as -> E; by destruct l1]. simplify_eq; eauto.
  - destruct l1 as [|x [|y l1]]; simpl in *.
    + injection E as -> <-. eauto.
    + lia.
    + injection E as -> -> E. apply (IH l1 E). exists (a - 1). lia.
Qed.
Lemma chain_odd_label L n l1 l2 : chain L -> L = l1 ++ n :: l2 -> site n = None ->
  exists pre l m suf p q, l1 = pre ++ [l] /\ l2 = m :: suf /\ site l = Some p /\ site m = Some q /\ label n = Some (p, q) /\ p <> q.
Proof.
  intros H. revert l1. induction H as [k q Hk|k b m L p' q Hk Hb Hm Hpq Hc IH]; intros l1 E Hn.
  - destruct l1 as [|x l1]; simpl in *; [|injection E as -> E; by destruct l1]. congruence.
  - destruct l1 as [|x [|y l1]]; simpl in *.
    + congruence.
    + injection E as -> -> <-. exists [], x, m, L, p', q. done.
    + injection E as -> -> E. destruct (IH l1 E Hn) as (pre & l & m' & suf & p & q' & -> & -> & H1 & H2 & H3 & H4).
      exists (x :: y :: pre), l, m', suf, p, q'. done.
Qed.

(* the five nodes around an arc with two neighbours *)
Lemma chain_triple L1 l b1 n b2 m L2 pl pn pm :
  site l = Some pl -> site n = Some pn -> site m = Some pm ->
  chain (L1 ++ l :: b1 :: n :: b2 :: m :: L2) <->
  (chain (L1 ++ [l]) /\ chain (m :: L2) /\ label b1 = Some (pl, pn) /\ label b2 = Some (pn, pm) /\ pl <> pn /\ pn <> pm).
Proof.
  intros Hl Hn Hm. split.
  - intros H. destruct (chain_split _ _ _ _ Hl H) as [H1 H2]. split; [done|].
    inversion H2 as [|? ? ? ? p q E1 E2 E3 E4 H3]; subst. inversion H3 as [|? ? ? ? p' q' F1 F2 F3 F4 H5]; subst.
    rewrite Hl in E1. injection E1 as <-. rewrite Hn in E3. injection E3 as <-.
    rewrite Hn in F1. injection F1 as <-. rewrite Hm in F3. injection F3 as <-. done.
  - intros (H1 & H2 & H3 & H4 & H5 & H6). apply chain_join; [done|].
    econstructor; eauto. econstructor; eauto.
Qed.
Lemma chain_pair L1 l b m L2 pl pm :
  site l = Some pl -> site m = Some pm ->
  chain (L1 ++ l :: b :: m :: L2) <->
  (chain (L1 ++ [l]) /\ chain (m :: L2) /\ label b = Some (pl, pm) /\ pl <> pm).
Proof.
  intros Hl Hm. split.
  - intros H. destruct (chain_split _ _ _ _ Hl H) as [H1 H2]. split; [done|].
    inversion H2 as [|? ? ? ? p q E1 E2 E3 E4 H3]; subst.
    rewrite Hl in E1. injection E1 as <-. rewrite Hm in E3. injection E3 as <-. done.
  - intros (H1 & H2 & H3 & H4). apply chain_join; [done|]. econstructor; eauto.
Qed.

(* the sites of the arcs, from left to right *)
Definition sites (L : list nat) : list nat := omap site L.
Lemma sites_app L1 L2 : sites (L1 ++ L2) = sites L1 ++ sites L2.
Proof. unfold sites. apply omap_app. Qed.
Lemma sites_cons_site n L p : site n = Some p -> sites (n :: L) = p :: sites L.
Proof. intros H. unfold sites. simpl. by rewrite H. Qed.
Lemma sites_cons_none n L : site n = None -> sites (n :: L) = sites L.
Proof. intros H. unfold sites. simpl. by rewrite H. Qed.
Lemma label_site n pq : label n = Some pq -> site n = None.
Proof. intros H. destruct (site n) eqn:E; [|done]. apply excl in E. congruence. Qed.

(* no two sites alternate along the beach line *)
Definition noncross (S : list nat) : Prop := forall a b, a <> b -> ~ [a; b; a; b] `sublist_of` S.

Lemma sub_mid (a : nat) K S1 S2 : a :: K `sublist_of` S1 ++ S2 ->
  (exists K1 K2, a :: K = K1 ++ K2 /\ K1 `sublist_of` S1 /\ K2 `sublist_of` S2).
Proof. intros H. apply sublist_app_r in H as (K1 & K2 & E & H1 & H2). eauto. Qed.

Lemma sub_elem (x : nat) K S : x :: K `sublist_of` S -> x ∈ S.
Proof. intros H. apply sublist_submseteq in H. eapply elem_of_submseteq; [|exact H]. left. Qed.

Lemma noncross_sub (S S' : list nat) : S' `sublist_of` S -> noncross S -> noncross S'.
Proof. intros H HN a b Hab Hs. apply (HN a b Hab). by etrans. Qed.

(* a pattern without equal neighbours that avoids i does not need both copies *)
Lemma pattern_merge (K : list nat) S1 x i S2 : i ∉ K ->
  (forall K1 a b K2, K = K1 ++ a :: b :: K2 -> a <> b) ->
  K `sublist_of` S1 ++ x :: i :: x :: S2 -> K `sublist_of` S1 ++ x :: S2.
Proof.
  intros Hi HK Hs. apply sublist_app_r in Hs as (K1 & K2 & -> & H1 & H2).
  apply sublist_app; [done|]. apply sublist_cons_r in H2 as [H2|(K3 & -> & H2)].
  - apply sublist_cons_r in H2 as [H2|(K3 & -> & H2)]; [|set_solver]. done.
  - apply sublist_cons_r in H2 as [H2|(K4 & -> & H2)]; [|set_solver].
    apply sublist_cons_r in H2 as [H2|(K4 & -> & H2)]; [by apply sublist_skip|].
    exfalso. by apply (HK K1 x x K4).
Qed.
Lemma noncross_insert S1 x i S2 : i ∉ S1 ++ x :: S2 -> noncross (S1 ++ x :: S2) -> noncross (S1 ++ x :: i :: x :: S2).
Proof.
  intros Hi HN a b Hab Hs.
  assert (Hcount : forall y, y = i -> [y; y] `sublist_of` S1 ++ x :: i :: x :: S2 -> False).
  { intros y -> H. apply sublist_app_r in H as (K1 & K2 & E & H1 & H2).
    assert (i <> x) by set_solver. assert (i ∉ S1) by set_solver. assert (i ∉ S2) by set_solver.
    destruct K1 as [|k K1].
    - simpl in E. subst K2. apply sublist_cons_r in H2 as [H2|(K & E & _)]; [|by injection E as ->].
      apply sublist_cons_r in H2 as [H2|(K & E & H2)].
      + apply sublist_cons_r in H2 as [H2|(K & E & _)]; [|by injection E as ->].
        apply sub_elem in H2. done.
      + injection E as <-. apply sublist_cons_r in H2 as [H2|(K & E & _)]; [|by injection E as ->].
        apply sub_elem in H2. done.
    - simpl in E. injection E as <- E. apply sub_elem in H1. done. }
  assert (Ha : a <> i). { intros ->. eapply Hcount; [reflexivity|]. etrans; [|exact Hs].
    apply sublist_skip, sublist_cons, sublist_skip, sublist_nil_l. }
  assert (Hb : b <> i). { intros ->. eapply Hcount; [reflexivity|]. etrans; [|exact Hs].
    apply sublist_cons, sublist_skip, sublist_cons, sublist_skip, sublist_nil_l. }
  apply (HN a b Hab). eapply pattern_merge; [|..|exact Hs].
  { set_solver. }
  intros K1 c d K2 E. destruct K1 as [|k1 [|k2 [|k3 [|k4 K1]]]]; simpl in E; simplify_eq; try congruence; destruct K1; simplify_eq.
Qed.
Lemma noncross_snoc S1 x i : i ∉ S1 ++ [x] -> noncross (S1 ++ [x]) -> noncross (S1 ++ [x; i]).
Proof.
  intros Hi HN. eapply noncross_sub; [|apply (noncross_insert S1 x i [] Hi HN)].
  apply sublist_app; [done|]. apply sublist_skip, sublist_skip, sublist_nil_l.
Qed.

(* labels are unique *)
Lemma label_unique L l1 b l2 l1' b' l2' pq : chain L -> noncross (sites L) -> NoDup L ->
  L = l1 ++ b :: l2 -> L = l1' ++ b' :: l2' -> label b = Some pq -> label b' = Some pq -> b = b'.
Proof.
  intros Hc HN Hnd E E' Hb Hb'. destruct (decide (b = b')) as [|Hne]; [done|exfalso].
  assert (forall l1 b l2 l1' b' l2', L = l1 ++ b :: l2 -> L = l1' ++ b' :: l2' -> label b = Some pq ->
     label b' = Some pq -> b <> b' -> length l1 < length l1' -> False) as Main.
  { clear - Hc HN excl. intros l1 b l2 l1' b' l2' E E' Hb Hb' Hne Hlen.
    destruct (chain_odd_label _ _ _ _ Hc E (label_site _ _ Hb)) as (pre & l & m & suf & p & q & -> & -> & Hl & Hm & HL & Hpq).
    destruct (chain_odd_label _ _ _ _ Hc E' (label_site _ _ Hb')) as (pre' & l' & m' & suf' & p' & q' & -> & -> & Hl' & Hm' & HL' & Hpq').
    rewrite Hb in HL. injection HL as ->. rewrite Hb' in HL'. injection HL' as <- <-.
    rewrite E in E'. rewrite <- !app_assoc in E'. simpl in E'. rewrite !app_length in Hlen. simpl in Hlen.
    assert (exists k, pre' = pre ++ k /\ l :: b :: m :: suf = k ++ l' :: b' :: m' :: suf') as (k & -> & E2).
    { clear - E' Hlen. revert pre' E' Hlen. induction pre as [|x pre IH]; intros pre' E' Hlen; simpl in *; [eauto|].
      destruct pre' as [|y pre']; simpl in *; [lia|]. injection E' as -> E'. destruct (IH pre' E') as (k & -> & ?); [lia|]. eauto. }
    assert (Hs : sites L = sites pre ++ sites (k ++ l' :: b' :: m' :: suf')).
    { rewrite E, <- app_assoc, sites_app. f_equal. simpl app. rewrite E2. done. }
    apply (HN p q Hpq). rewrite Hs. apply sublist_inserts_l.
    destruct k as [|k1 [|k2 [|k3 k]]]; simpl in E2.
    - simplify_eq.
    - simplify_eq. apply label_site in Hb. congruence.
    - simplify_eq.
    - injection E2 as <- <- <- E2. rewrite sites_app.
      rewrite (sites_cons_site l _ p Hl), (sites_cons_none b) by (eapply label_site; eauto).
      rewrite (sites_cons_site m _ q Hm), (sites_cons_site l' _ p Hl'), (sites_cons_none b') by (eapply label_site; eauto).
      rewrite (sites_cons_site m' _ q Hm'). simpl. do 2 apply sublist_skip. apply sublist_inserts_l.
      do 2 apply sublist_skip. apply sublist_nil_l. }
  destruct (Nat.lt_trichotomy (length l1) (length l1')) as [H|[H|H]].
  - eapply (Main l1 b l2 l1' b' l2'); eauto.
  - assert (l1 ++ b :: l2 = l1' ++ b' :: l2') as E2 by congruence.
    apply app_inj_1 in E2 as [_ E2]; [|done]. by injection E2 as ->.
  - eapply (Main l1' b' l2' l1 b l2); eauto.
Qed.
End Chain.

Lemma chain_mono site label site' label' L :
  (forall n p, n ∈ L -> site n = Some p -> site' n = Some p) ->
  (forall n p, n ∈ L -> label n = Some p -> label' n = Some p) ->
  chain site label L -> chain site' label' L.
Proof.
  intros H1 H2 H. induction H as [n p Hn|n b m L p q Hn Hb Hm Hpq Hc IH].
  - econstructor. apply H1; [set_solver|eauto].
  - econstructor; eauto; [apply H1|apply H2|apply H1|apply IH]; eauto; try set_solver.
Qed.
Lemma sites_ext site site' L : (forall n, n ∈ L -> site' n = site n) -> sites site' L = sites site L.
Proof.
  intros H. unfold sites. induction L as [|x L IH]; simpl; [done|].
  rewrite H by set_solver. destruct (site x); [f_equal|]; apply IH; set_solver.
Qed.

Lemma leaf_plug t n : full t -> n ∈ leaves t -> exists C, t = plug C (leaf n) /\ full_ctx C.
Proof.
  enough (forall D, full_ctx D -> full t -> n ∈ leaves t -> exists C, plug D t = plug C (leaf n) /\ full_ctx C) as H
    by (intros; by apply (H Top)).
  induction t as [|l IHl m r IHr]; [done|]. intros D FD Hf Hn.
  destruct (full_node _ _ _ Hf) as [[-> ->]|(Fl & Fr & Nl & Nr)].
  { simpl in Hn. apply elem_of_list_singleton in Hn as ->. exists D. done. }
  rewrite leaves_T in Hn by done. apply elem_of_app in Hn as [Hn|Hn].
  - apply (IHl (CL D m r)); simpl; auto.
  - apply (IHr (CR l m D)); simpl; auto.
Qed.

Lemma sites_mono site label site' label' L :
  (forall n p, site' n = Some p -> label' n = None) ->
  (forall n p, n ∈ L -> site n = Some p -> site' n = Some p) ->
  (forall n p, n ∈ L -> label n = Some p -> label' n = Some p) ->
  chain site label L -> sites site' L = sites site L.
Proof.
  intros excl H1 H2 Hc. apply sites_ext. intros n Hn. destruct (site n) as [p|] eqn:Hs; [by apply H1|].
  apply elem_of_list_split in Hn as (l1 & l2 & E).
  destruct (chain_odd_label _ _ _ n l1 l2 Hc E Hs) as (pre & l & m & suf & p & q & -> & -> & _ & _ & HL & _).
  assert (Hn : n ∈ L) by (rewrite E; clear; set_solver).
  destruct (site' n) eqn:Hs'; [|done]. apply excl in Hs'. rewrite (H2 n (p, q) Hn HL) in Hs'. done.
Qed.
