(* CleanUp.v -- Algorithm.clean_up_zero_length_edges. *)
From stdpp Require Import base list sets.
From Coq Require Import ZArith Lia.
From Verif Require Import Arith Geom Monad Tree Heapq State Sweep Finish HeapqProofs EventOrder TreeProofs TreeOps SweepBase Dcel SweepInv SweepCircle FinishEdges Spec.
Local Open Scope monad_scope.

Lemma bind_inv {S X Y} (m : M S X) (k : X -> M S Y) s s' y : bind m k s = Val (s', y) -> exists s1 x, m s = Val (s1, x) /\ k x s1 = Val (s', y).
Proof. unfold bind. destruct (m s) as [[s1 x]|]; [eauto|done]. Qed.

Section Clean.
Context (A : Arith) (TO : TotalOrder A).
Notation St := (state A).
Implicit Types s : St.

Definition xyof s (v : nat) : option (pt A) := w ← s_verts s !! v; v_xy w.
Definition org s (e : nat) : option origin := h ← s_hedges s !! e; Some (h_origin h).
(* the same place, as the code compares it *)
Definition near (a b : option (pt A)) : Prop :=
  match a, b with Some p, Some q => deqb A (fst p) (fst q) = true /\ deqb A (snd p) (snd q) = true | _, _ => False end.
Lemma near_sym a b : near a b -> near b a.
Proof. destruct a as [[]|], b as [[]|]; simpl; try done. by rewrite (d_eq_sym A TO d), (d_eq_sym A TO d0). Qed.
Lemma near_trans a b c : near a b -> near b c -> near a c.
Proof. destruct a as [[]|], b as [[]|], c as [[]|]; simpl; try done. intros [H1 H2] [H3 H4]. split; by eapply (d_eq_trans A TO). Qed.
Lemma near_refl_l a b : near a b -> near a a.
Proof. intros H. eapply near_trans; [exact H|by apply near_sym]. Qed.
Lemma near_refl_r a b : near a b -> near b b.
Proof. intros H. eapply near_trans; [apply near_sym; exact H|done]. Qed.
Lemma near_some p : near (Some p) (Some p).
Proof. simpl. by rewrite !(d_eq_refl A TO). Qed.

(* everything but the links, the lists of connected edges and first edges stays; some ends move
   to another vertex of W at the same place *)
Record moved (W : nat -> Prop) s s' : Prop := {
  m_log : s_log s' = s_log s;
  m_sweep : s_sweep s' = s_sweep s;
  m_edges : s_edges s' = s_edges s;
  m_sites : s_sites s' = s_sites s;
  m_xy : forall v, xyof s' v = xyof s v;
  m_twin : forall e, twin A s' e = twin A s e;
  m_inc : forall e, borders_site A s' e = borders_site A s e;
  m_bp : forall e b, org s e = Some (OBp b) -> org s' e = Some (OBp b);
  m_or : forall e u, org s e = Some (OVx u) -> exists u', org s' e = Some (OVx u') /\ (u' = u \/ W u' /\ near (xyof s u) (xyof s u'));
  m_len : length (s_hedges s') = length (s_hedges s)
}.
Lemma moved_refl W s : moved W s s.
Proof. constructor; try done. intros e u H. eauto. Qed.
Lemma moved_trans W s1 s2 s3 : moved W s1 s2 -> moved W s2 s3 -> moved W s1 s3.
Proof.
  intros [] []. constructor; try congruence.
  - eauto.
  - intros e u H. destruct (m_or0 e u H) as (u' & H1 & H2). destruct (m_or1 e u' H1) as (u2 & H3 & H4). exists u2. split; [done|].
    rewrite !m_xy0 in H4. destruct H2 as [->|[H2 H2']]; [done|]. destruct H4 as [->|[H4 H4']]; [by right|]. right. split; [done|]. by eapply near_trans.
Qed.

(* what a vertex of W lists starts at a vertex of W at the same place *)
Definition listed (W : nat -> Prop) s : Prop := forall v c, W v -> c ∈ connected A s v -> exists u, org s c = Some (OVx u) /\ W u /\ near (xyof s u) (xyof s v).

(* steps that only touch links, lists (shrinking) and first edges *)
Record linksonly s s' : Prop := {
  l_moved : forall W, moved W s s';
  l_conn : forall v c, c ∈ connected A s' v -> c ∈ connected A s v;
  l_or : forall e, org s' e = org s e
}.
Lemma linksonly_refl s : linksonly s s.
Proof. constructor; [intros; apply moved_refl|done|done]. Qed.
Lemma linksonly_trans s1 s2 s3 : linksonly s1 s2 -> linksonly s2 s3 -> linksonly s1 s3.
Proof. intros [] []. constructor; [intros; by eapply moved_trans|eauto|congruence]. Qed.
Lemma linksonly_listed W s s' : linksonly s s' -> listed W s -> listed W s'.
Proof.
  intros HL H v c Hv Hc. destruct (H v c Hv (l_conn _ _ HL _ _ Hc)) as (u & H1 & H2 & H3). exists u. rewrite (l_or _ _ HL). split; [done|]. split; [done|].
  destruct (l_moved _ _ HL W). by rewrite !m_xy0.
Qed.

Lemma upd_inv {T} (f : T -> T) i (l : list T) l' y : upd_at i f l = Val (l', y) -> exists x, l !! i = Some x /\ l' = <[i := f x]> l.
Proof. unfold upd_at. destruct (l !! i); [|done]. intros [= <- <-]. eauto. Qed.

Lemma links_hedge s i f x : s_hedges s !! i = Some x -> h_origin (f x) = h_origin x -> h_twin (f x) = h_twin x -> h_inc (f x) = h_inc x ->
  linksonly s (set_hedges (<[i := f x]> (s_hedges s)) s).
Proof.
  intros Hx H1 H2 H3. set (hs := <[i := f x]> (s_hedges s)).
  assert (HL : forall e (g : hedge -> option nat), g (f x) = g x -> (h ← hs !! e; g h) = (h ← s_hedges s !! e; g h)).
  { intros e g Hg. unfold hs. destruct (decide (i = e)) as [<-|Hne]; [|by rewrite list_lookup_insert_ne].
    rewrite list_lookup_insert by (by eapply lookup_lt_Some). rewrite Hx. done. }
  assert (HO : forall e, org (set_hedges hs s) e = org s e).
  { intros e. unfold org. cbn [set_hedges s_hedges]. unfold hs. destruct (decide (i = e)) as [<-|Hne]; [|by rewrite list_lookup_insert_ne].
    rewrite list_lookup_insert by (by eapply lookup_lt_Some). rewrite Hx. simpl. congruence. }
  constructor; [intros W; constructor; try done| |done].
  - intros e. unfold twin, half. cbn [set_hedges s_hedges]. by apply HL.
  - intros e. unfold borders_site, half. cbn [set_hedges s_hedges]. by apply HL.
  - intros e b. by rewrite HO.
  - intros e u. rewrite HO. eauto.
  - cbn [set_hedges s_hedges]. unfold hs. by rewrite insert_length.
  - done.
Qed.
Lemma links_next s p nx s' y : set_next p nx s = Val (s', y) -> linksonly s s'.
Proof.
  unfold set_next, hedges_do, zoom. destruct (bind _ _ _) as [[hs []]|] eqn:E; [|done]. intros [= <- _]. apply bind_inv in E as (h1 & [] & E1 & E2).
  assert (L1 : linksonly s (set_hedges h1 s)).
  { destruct nx as [n|]; [|injection E1 as <-; destruct s; apply linksonly_refl]. apply upd_inv in E1 as (x & Hx & ->). by apply (links_hedge s n (with_h_prev (Some p))). }
  apply upd_inv in E2 as (x & Hx & ->). eapply linksonly_trans; [exact L1|].
  pose proof (links_hedge (set_hedges h1 s) p (with_h_next nx) x Hx eq_refl eq_refl eq_refl) as L2. exact L2.
Qed.
Lemma list_remove_sub x l k : list_remove x l = Some k -> forall y, y ∈ k -> y ∈ l.
Proof. intros H y Hy. apply list_remove_perm in H. rewrite H. by right. Qed.
Lemma links_remove s v e s' y : conn_remove v e s = Val (s', y) -> linksonly s s'.
Proof.
  unfold conn_remove. intros H. apply bind_inv in H as (s1 & w & H1 & H2). unfold verts_do, zoom, get_at in H1. destruct (s_verts s !! v) as [w'|] eqn:Ew; [|done].
  injection H1 as <- <-. replace (set_verts (s_verts s) s) with s in H2 by (by destruct s). destruct (list_remove e (v_conn w')) as [l|] eqn:El; [|done].
  unfold verts_do, zoom in H2. destruct (upd_at _ _ _) as [[vs []]|] eqn:Eu; [|done]. injection H2 as <- _. apply upd_inv in Eu as (x & Hx & ->). assert (x = w') as -> by congruence.
  set (vs := <[v := with_v_conn l w']> (s_verts s)).
  assert (HX : forall u, xyof (set_verts vs s) u = xyof s u).
  { intros u. unfold xyof. cbn [set_verts s_verts]. unfold vs. destruct (decide (v = u)) as [<-|Hne]; [|by rewrite list_lookup_insert_ne].
    rewrite list_lookup_insert by (by eapply lookup_lt_Some). rewrite Ew. done. }
  constructor; [intros W; constructor; try done; eauto| |done].
  intros u c. unfold connected. cbn [set_verts s_verts]. unfold vs. destruct (decide (v = u)) as [<-|Hne]; [|by rewrite list_lookup_insert_ne].
  rewrite list_lookup_insert by (by eapply lookup_lt_Some). rewrite Ew. simpl. by apply (list_remove_sub e).
Qed.
Lemma links_points s f p s' y : points_do (upd_at p f) s = Val (s', y) -> linksonly s s'.
Proof.
  unfold points_do, zoom. destruct (upd_at _ _ _) as [[ps []]|] eqn:Eu; [|done]. intros [= <- _]. constructor; [intros W; constructor; try done; eauto|done|done].
Qed.
Lemma links_vset s l : linksonly s (set_vset l s).
Proof. constructor; [intros W; constructor; try done; eauto|done|done]. Qed.

Lemma get_hedge_inv s e s' h : hedges_do (get_at e) s = Val (s', h) -> s' = s /\ s_hedges s !! e = Some h.
Proof. unfold hedges_do, zoom, get_at. destruct (s_hedges s !! e) as [x|]; [|done]. intros [= <- <-]. split; [by destruct s|done]. Qed.
Lemma get_vert_inv s e s' h : verts_do (get_at e) s = Val (s', h) -> s' = s /\ s_verts s !! e = Some h.
Proof. unfold verts_do, zoom, get_at. destruct (s_verts s !! e) as [x|]; [|done]. intros [= <- <-]. split; [by destruct s|done]. Qed.
Lemma get_point_inv s e s' h : points_do (get_at e) s = Val (s', h) -> s' = s /\ s_points s !! e = Some h.
Proof. unfold points_do, zoom, get_at. destruct (s_points s !! e) as [x|]; [|done]. intros [= <- <-]. split; [by destruct s|done]. Qed.
Lemma twin_inv s e s' t : twin_of e s = Val (s', t) -> s' = s /\ twin A s e = Some t.
Proof.
  unfold twin_of. intros H. apply bind_inv in H as (s1 & h & H1 & H2). apply get_hedge_inv in H1 as [-> H1]. unfold need in H2.
  destruct (h_twin h) as [t'|] eqn:E; [|done]. injection H2 as <- <-. split; [done|]. unfold twin, half. by rewrite H1.
Qed.

Lemma links_delete s e s' y : delete_edge A e s = Val (s', y) -> linksonly s s'.
Proof.
  unfold delete_edge. intros H. apply bind_inv in H as (s1 & h & H1 & H). apply get_hedge_inv in H1 as [-> H1].
  apply bind_inv in H as (s2 & [] & H2 & H). apply bind_inv in H as (s3 & [] & H3 & H).
  assert (L2 : linksonly s s2). { destruct (h_origin h); [injection H2 as <-; apply linksonly_refl|by eapply links_remove]. }
  assert (L3 : linksonly s2 s3). { destruct (h_prev h); [by eapply links_next|injection H3 as <-; apply linksonly_refl]. }
  assert (L4 : linksonly s3 s'); [|eapply linksonly_trans; [exact L2|]; by eapply linksonly_trans].
  destruct (h_inc h) as [p|]; [|injection H as <-; apply linksonly_refl]. apply bind_inv in H as (s4 & xp & H4 & H). apply get_point_inv in H4 as [-> H4].
  destruct (bool_decide _); [|injection H as <-; apply linksonly_refl]. apply bind_inv in H as (s5 & h' & H5 & H). apply get_hedge_inv in H5 as [-> H5].
  apply bind_inv in H as (s6 & [] & H6 & H). apply links_points in H. destruct (h_next h') as [nn|].
  - apply bind_inv in H6 as (s7 & hn & H7 & H6). apply get_hedge_inv in H7 as [-> H7]. destruct (bool_decide _); [|done]. by injection H6 as <-.
  - by injection H6 as <-.
Qed.

(* one connected edge is moved *)
Lemma move_step (W : nat -> Prop) s v1 v2 c s1 s2 s3 y1 y2 y3 : W v1 -> W v2 -> near (xyof s v1) (xyof s v2) -> listed W s -> c ∈ connected A s v1 ->
  hedges_do (upd_at c (with_h_origin (OVx v2))) s = Val (s1, y1) -> conn_remove v1 c s1 = Val (s2, y2) -> conn_append v2 c s2 = Val (s3, y3) ->
  moved W s s3 /\ listed W s3.
Proof.
  intros W1 W2 HN HL Hc H1 H2 H3. destruct (HL v1 c W1 Hc) as (u & U1 & U2 & U3).
  unfold hedges_do, zoom in H1. destruct (upd_at _ _ (s_hedges s)) as [[hs []]|] eqn:E1; [|done]. injection H1 as <- _. apply upd_inv in E1 as (h & Hh & ->).
  set (hs := <[c := with_h_origin (OVx v2) h]> (s_hedges s)) in *.
  assert (Lk : forall e, hs !! e = if decide (c = e) then Some (with_h_origin (OVx v2) h) else s_hedges s !! e).
  { intros e. unfold hs. case_decide as E; [subst e; apply list_lookup_insert; by eapply lookup_lt_Some|by apply list_lookup_insert_ne]. }
  assert (O1 : forall e, org (set_hedges hs s) e = if decide (c = e) then Some (OVx v2) else org s e).
  { intros e. unfold org. cbn [set_hedges s_hedges]. rewrite Lk. by case_decide. }
  assert (M1 : moved W s (set_hedges hs s)).
  { constructor; try done.
    - intros e. unfold twin, half. cbn [set_hedges s_hedges]. rewrite Lk. case_decide as E; [subst e; by rewrite Hh|done].
    - intros e. unfold borders_site, half. cbn [set_hedges s_hedges]. rewrite Lk. case_decide as E; [subst e; by rewrite Hh|done].
    - intros e b Hb. rewrite O1. case_decide as E; [subst e; congruence|done].
    - intros e w Hw. rewrite O1. case_decide as E; [subst e|eauto]. exists v2. split; [done|]. right. split; [done|]. assert (w = u) as -> by congruence. by eapply near_trans.
    - cbn [set_hedges s_hedges]. unfold hs. apply insert_length. }
  pose proof (links_remove _ _ _ _ _ H2) as L2.
  assert (HA : exists w, s_verts s2 !! v2 = Some w /\ s3 = set_verts (<[v2 := with_v_conn (v_conn w ++ [c]) w]> (s_verts s2)) s2).
  { unfold conn_append, verts_do, zoom in H3. destruct (upd_at _ _ _) as [[vs []]|] eqn:Eu; [|done]. injection H3 as <- _. apply upd_inv in Eu as (w & Hw & ->). eauto. }
  destruct HA as (w & Hw & ->). set (s3 := set_verts _ s2).
  assert (Lv : forall v, s_verts s3 !! v = if decide (v2 = v) then Some (with_v_conn (v_conn w ++ [c]) w) else s_verts s2 !! v).
  { intros v. unfold s3. cbn [set_verts s_verts]. case_decide as E; [subst v; apply list_lookup_insert; by eapply lookup_lt_Some|by apply list_lookup_insert_ne]. }
  assert (X3 : forall v, xyof s3 v = xyof s2 v). { intros v. unfold xyof. rewrite Lv. case_decide as E; [subst v; by rewrite Hw|done]. }
  assert (M3 : moved W s2 s3). { constructor; try done; eauto. }
  pose proof (l_moved _ _ L2 W) as M2. assert (MM : moved W s s3) by (eapply moved_trans; [exact M1|by eapply moved_trans]). split; [done|].
  intros v c' Hv Hc'. assert (O3 : forall e, org s3 e = if decide (c = e) then Some (OVx v2) else org s e).
  { intros e. change (org s3 e) with (org s2 e). by rewrite (l_or _ _ L2), O1. }
  assert (X : forall v, xyof s3 v = xyof s v) by (intros; apply MM).
  assert (Cs : c' ∈ connected A s v \/ (v = v2 /\ c' = c)).
  { unfold connected in Hc'. rewrite Lv in Hc'. case_decide as E.
    - subst v. simpl in Hc'. apply elem_of_app in Hc' as [Hc'| ->%elem_of_list_singleton]; [|by right]. left. assert (c' ∈ connected A s2 v2) as HH by (unfold connected; by rewrite Hw).
      by apply (l_conn _ _ L2) in HH.
    - left. assert (c' ∈ connected A s2 v) as HH by exact Hc'. by apply (l_conn _ _ L2) in HH. }
  destruct Cs as [Cs|[-> ->]].
  - destruct (HL v c' Hv Cs) as (u' & U1' & U2' & U3'). rewrite O3. case_decide as E.
    + subst c'. exists v2. split; [done|]. split; [done|]. rewrite !X. assert (u' = u) as -> by congruence. eapply near_trans; [apply near_sym; exact HN|].
      eapply near_trans; [apply near_sym; exact U3|done].
    + exists u'. rewrite !X. done.
  - exists v2. rewrite O3, decide_True by done. split; [done|]. split; [done|]. rewrite !X. by eapply near_refl_r.
Qed.

Lemma move_moved (W : nat -> Prop) v1 v2 : W v1 -> W v2 -> forall fuel i s s' y, near (xyof s v1) (xyof s v2) -> listed W s ->
  move_connected A fuel i v1 v2 s = Val (s', y) -> moved W s s' /\ listed W s'.
Proof.
  intros W1 W2. induction fuel as [|fuel IH]; intros i s s' y HN HL; [done|]. cbn [move_connected]. intros H.
  apply bind_inv in H as (s1 & w & H1 & H). apply get_vert_inv in H1 as [-> Hw]. destruct (v_conn w !! i) as [c|] eqn:Ec.
  - apply bind_inv in H as (s2 & y2 & H2 & H). apply bind_inv in H as (s3 & y3 & H3 & H). apply bind_inv in H as (s4 & y4 & H4 & H).
    assert (Hc : c ∈ connected A s v1). { unfold connected. rewrite Hw. by eapply elem_of_list_lookup_2. }
    destruct (move_step W s v1 v2 c s2 s3 s4 _ _ _ W1 W2 HN HL Hc H2 H3 H4) as [M4 L4].
    destruct (IH (S i) s4 s' y) as [M5 L5]; [destruct M4; by rewrite !m_xy0|done|done|]. split; [by eapply moved_trans|done].
  - injection H as <- _. split; [apply moved_refl|done].
Qed.

(* ---------- an edge whose two ends are at the same place ---------- *)
Definition zlen s (e : nat) : Prop := exists t u v, twin A s e = Some t /\ org s e = Some (OVx u) /\ org s t = Some (OVx v) /\ near (xyof s u) (xyof s v).
Lemma zero_moved W s s' e : moved W s s' -> zlen s' e -> zlen s e.
Proof.
  intros M (t & u & v & H1 & H2 & H3 & H4). destruct M. rewrite m_twin0 in H1.
  assert (HO : forall x z, org s' x = Some (OVx z) -> exists z0, org s x = Some (OVx z0) /\ (z = z0 \/ near (xyof s z0) (xyof s z))).
  { intros x z Hx. destruct (org s x) as [[b|z0]|] eqn:Eo.
    - rewrite (m_bp0 x b Eo) in Hx. done.
    - destruct (m_or0 x z0 Eo) as (z' & Z1 & Z2). assert (z' = z) as -> by congruence. exists z0. split; [done|]. tauto.
    - unfold org in Hx, Eo. destruct (s_hedges s !! x) eqn:E1; [done|]. destruct (s_hedges s' !! x) eqn:E2; [|done]. apply lookup_lt_Some in E2. apply lookup_ge_None in E1. lia. }
  destruct (HO e u H2) as (u0 & U1 & U2). destruct (HO t v H3) as (v0 & V1 & V2). rewrite !m_xy0 in H4. exists t, u0, v0. split; [done|]. split; [done|]. split; [done|].
  assert (N1 : near (xyof s u0) (xyof s u)). { destruct U2 as [->|U2]; [by eapply near_refl_l|done]. }
  assert (N2 : near (xyof s v0) (xyof s v)). { destruct V2 as [->|V2]; [by eapply near_refl_r|done]. }
  eapply near_trans; [exact N1|]. eapply near_trans; [exact H4|]. by apply near_sym.
Qed.

Definition within (W : nat -> Prop) s (es : list nat) : Prop :=
  forall e t u, e ∈ es -> twin A s e = Some t -> (org s e = Some (OVx u) -> W u) /\ (org s t = Some (OVx u) -> W u).
Lemma within_moved W s s' es : moved W s s' -> within W s es -> within W s' es.
Proof.
  intros M H e t u He Ht. rewrite (m_twin _ _ _ M) in Ht.
  assert (HO : forall x, (forall z, org s x = Some (OVx z) -> W z) -> org s' x = Some (OVx u) -> W u).
  { intros x Hx Ho. destruct (org s x) as [[b|z0]|] eqn:Eo.
    - rewrite (m_bp _ _ _ M x b Eo) in Ho. done.
    - destruct (m_or _ _ _ M x z0 Eo) as (z' & Z1 & Z2). assert (z' = u) as -> by congruence. destruct Z2 as [->|[Z2 _]]; [by apply Hx|done].
    - unfold org in Ho, Eo. destruct (s_hedges s !! x) eqn:E1; [done|]. destruct (s_hedges s' !! x) eqn:E2; [|done]. apply lookup_lt_Some in E2. apply lookup_ge_None in E1. pose proof (m_len _ _ _ M). lia. }
  split; (apply HO; intros z Hz; destruct (H e t z He Ht); auto).
Qed.

Lemma get_origin_inv s e s' o : get_origin A e None s = Val (s', o) -> s' = s /\
  ((exists b, org s e = Some (OBp b) /\ o = None) \/ exists u w, org s e = Some (OVx u) /\ s_verts s !! u = Some w /\ o = option_map (xpt_of A) (v_xy w)).
Proof.
  unfold get_origin. intros H. apply bind_inv in H as (s1 & h & H1 & H). apply get_hedge_inv in H1 as [-> Hh]. unfold org. rewrite Hh. simpl.
  destruct (h_origin h) as [b|u] eqn:Eo.
  - injection H as <- <-. split; [done|]. left. eauto.
  - apply bind_inv in H as (s1 & w & H1 & H). apply get_vert_inv in H1 as [-> Hw]. injection H as <- <-. split; [done|]. right. eauto 10.
Qed.

Lemma clean_edge_inv W s e s' k : listed W s -> within W s [e] -> clean_edge A e s = Val (s', k) ->
  (k = true /\ s' = s /\ ~ zlen s e) \/ (k = false /\ zlen s e /\ moved W s s' /\ listed W s').
Proof.
  intros HL HW. unfold clean_edge. intros H. apply bind_inv in H as (s1 & o1 & H1 & H). apply get_origin_inv in H1 as [-> H1].
  apply bind_inv in H as (s1 & t & H2 & H). apply twin_inv in H2 as [-> H2]. apply bind_inv in H as (s1 & o2 & H3 & H). apply get_origin_inv in H3 as [-> H3].
  apply bind_inv in H as (s1 & p & H4 & H). apply bind_inv in H as (s2 & q & H5 & H). unfold need in H4, H5.
  destruct o1 as [p'|]; [|done]. injection H4 as <- <-. destruct o2 as [q'|]; [|done]. injection H5 as <- <-.
  destruct H1 as [(b & _ & ?)|(u & wu & U1 & U2 & U3)]; [done|]. destruct H3 as [(b & _ & ?)|(v & wv & V1 & V2 & V3)]; [done|].
  destruct (v_xy wu) as [pu|] eqn:Xu; [|done]. destruct (v_xy wv) as [pv|] eqn:Xv; [|done]. injection U3 as ->. injection V3 as ->.
  assert (Xu' : xyof s u = Some pu) by (unfold xyof; by rewrite U2). assert (Xv' : xyof s v = Some pv) by (unfold xyof; by rewrite V2).
  assert (HS : (deqb A (fst (xpt_of A pu)) (fst (xpt_of A pv)) && match snd (xpt_of A pu), snd (xpt_of A pv) with Fin y, Fin y' => deqb A y y' | _, _ => false end) = true <-> near (xyof s u) (xyof s v)).
  { rewrite Xu', Xv'. destruct pu, pv. simpl. apply andb_true_iff. }
  assert (HZ : zlen s e <-> near (xyof s u) (xyof s v)).
  { split; [|intros HN; exists t, u, v; done]. intros (t' & u' & v' & Z1 & Z2 & Z3 & Z4). assert (t' = t) as -> by congruence. assert (u' = u) as -> by congruence. assert (v' = v) as -> by congruence. done. }
  destruct (_ && _) eqn:Es in H.
  - right. destruct HS as [HS _]. specialize (HS Es). apply bind_inv in H as (s1 & v1 & H6 & H). apply bind_inv in H as (s2 & v2 & H7 & H).
    unfold vertex_of_origin in H6, H7. apply bind_inv in H6 as (s3 & h & H8 & H6). apply get_hedge_inv in H8 as [-> H8]. unfold org in U1. rewrite H8 in U1. simpl in U1. injection U1 as U1. rewrite U1 in H6. injection H6 as <- <-.
    apply bind_inv in H7 as (s3 & h2 & H9 & H7). apply get_hedge_inv in H9 as [-> H9]. unfold org in V1. rewrite H9 in V1. simpl in V1. injection V1 as V1. rewrite V1 in H7. injection H7 as <- <-.
    apply bind_inv in H as (s3 & w & H10 & H). apply get_vert_inv in H10 as [-> H10]. apply bind_inv in H as (s4 & y4 & H11 & H).
    destruct (HW e t u ltac:(by left) H2) as [W1 _]. destruct (HW e t v ltac:(by left) H2) as [_ W2].
    assert (Wu : W u) by (apply W1; unfold org; rewrite H8; simpl; by rewrite U1). assert (Wv : W v) by (apply W2; unfold org; rewrite H9; simpl; by rewrite V1).
    destruct (move_moved W u v Wu Wv _ _ _ _ _ HS HL H11) as [M4 L4]. apply bind_inv in H as (s5 & y5 & H12 & H). apply bind_inv in H as (s6 & y6 & H13 & H).
    apply bind_inv in H as (s7 & t' & H14 & H). apply twin_inv in H14 as [-> H14]. apply bind_inv in H as (s8 & y8 & H15 & H). injection H as <- <-.
    assert (K5 : linksonly s4 s5). { unfold vertices_remove in H12. apply bind_inv in H12 as (s9 & l & H16 & H12). injection H16 as <- <-. destruct (list_remove u (s_vset s4)); [|done]. injection H12 as <- _. apply links_vset. }
    assert (K8 : linksonly s4 s8). { eapply linksonly_trans; [exact K5|]. eapply linksonly_trans; [by eapply links_delete|by eapply links_delete]. }
    split; [done|]. split; [by apply HZ|]. split; [eapply moved_trans; [exact M4|apply K8]|by eapply linksonly_listed].
  - left. injection H as <- <-. split; [done|]. split; [done|]. rewrite HZ. intros HN. apply HS in HN. congruence.
Qed.

Lemma clean_loop_inv (W : nat -> Prop) es : forall s s' r, listed W s -> within W s es -> clean_loop A es s = Val (s', r) ->
  moved W s s' /\ listed W s' /\ sublist r es /\ (forall e, e ∈ r -> ~ zlen s' e) /\ (forall e, e ∈ es -> e ∉ r -> exists s0, moved W s s0 /\ zlen s0 e).
Proof.
  induction es as [|e es IH]; intros s s' r HL HW; cbn [clean_loop]; intros H.
  - injection H as <- <-. split; [apply moved_refl|]. split; [done|]. split; [constructor|]. split; intros e; by intros ?%elem_of_nil.
  - apply bind_inv in H as (s1 & k & H1 & H). apply bind_inv in H as (s2 & r' & H2 & H). injection H as <- <-.
    assert (HW1 : within W s [e]). { intros x t u ->%elem_of_list_singleton. apply HW. by left. }
    assert (HWs : within W s es). { intros x t u Hx. apply HW. by right. }
    destruct (clean_edge_inv W s e s1 k HL HW1 H1) as [(-> & -> & HZ)|(-> & HZ & M1 & L1)].
    + destruct (IH s s2 r' HL HWs H2) as (M2 & L2 & S2 & Z2 & D2). split; [done|]. split; [done|]. split; [by constructor|]. split.
      * intros x [->|Hx]%elem_of_cons; [|by apply Z2]. intros Hz. apply HZ. by eapply zero_moved.
      * intros x [->|Hx]%elem_of_cons Hn; [exfalso; apply Hn; by left|]. apply D2; [done|]. intros Hr. apply Hn. by right.
    + destruct (IH s1 s2 r' L1 (within_moved _ _ _ _ M1 HWs) H2) as (M2 & L2 & S2 & Z2 & D2). split; [by eapply moved_trans|]. split; [done|]. split; [by constructor|]. split; [done|].
      intros x [->|Hx]%elem_of_cons Hn; [exists s; split; [apply moved_refl|done]|]. destruct (D2 x Hx Hn) as (s0 & Q1 & Q2). exists s0. split; [by eapply moved_trans|done].
Qed.

Theorem clean_up_inv W s s' : listed W s -> within W s (s_edges s) -> clean_up_zero_length_edges A s = Val (s', tt) ->
  sublist (s_edges s') (s_edges s) /\ (forall e, e ∈ s_edges s -> (e ∈ s_edges s' <-> ~ zlen s e)) /\ (forall e, e ∈ s_edges s' -> ~ zlen s' e) /\
  moved W s (set_edges (s_edges s) s').
Proof.
  intros HL HW. unfold clean_up_zero_length_edges. intros H. apply bind_inv in H as (s1 & es & H1 & H). injection H1 as <- <-.
  apply bind_inv in H as (s2 & r & H2 & H). injection H as <-. destruct (clean_loop_inv W _ s s2 r HL HW H2) as (M & L & S & Z & D). cbn [set_edges s_edges].
  split; [done|]. split; [|split; [done|]].
  - intros e He. split.
    + intros Hr Hz. apply (Z e Hr).
      (* places do not change *)
      destruct Hz as (t & u & v & Z1 & Z2 & Z3 & Z4). destruct (m_or _ _ _ M e u Z2) as (u' & U1 & U2). destruct (m_or _ _ _ M t v Z3) as (v' & V1 & V2).
      exists t, u', v'. rewrite (m_twin _ _ _ M). split; [done|]. split; [done|]. split; [done|]. rewrite !(m_xy _ _ _ M).
      assert (N1 : near (xyof s u') (xyof s u)). { destruct U2 as [->|[_ U2]]; [by eapply near_refl_l|by apply near_sym]. }
      assert (N2 : near (xyof s v) (xyof s v')). { destruct V2 as [->|[_ V2]]; [by eapply near_refl_r|done]. }
      eapply near_trans; [exact N1|]. by eapply near_trans.
    + intros Hz. destruct (decide (e ∈ r)); [done|]. exfalso. destruct (D e He n) as (s0 & Q1 & Q2). apply Hz. by eapply zero_moved.
  - destruct M. constructor; try done.
Qed.

(* nothing to remove *)
Lemma clean_edge_noop s e t u v xu xv : twin A s e = Some t -> org s e = Some (OVx u) -> org s t = Some (OVx v) -> xyof s u = Some xu -> xyof s v = Some xv ->
  ~ near (Some xu) (Some xv) -> clean_edge A e s = Val (s, true).
Proof.
  unfold twin, half, org, xyof. intros H1 H2 H3 H4 H5 HN. destruct (s_hedges s !! e) as [h|] eqn:Eh; [|done]. simpl in *. destruct (s_hedges s !! t) as [ht|] eqn:Et; [|done]. simpl in *.
  destruct (s_verts s !! u) as [wu|] eqn:Eu; [|done]. destruct (s_verts s !! v) as [wv|] eqn:Ev; [|done]. simpl in *. injection H2 as H2. injection H3 as H3.
  unfold clean_edge. erewrite bind_val. 2:{ unfold get_origin. erewrite bind_val by (by apply hedges_get). rewrite H2. erewrite bind_val by (by apply verts_get). reflexivity. }
  erewrite bind_val by (by eapply twin_of_val). erewrite bind_val. 2:{ unfold get_origin. erewrite bind_val by (by apply hedges_get). rewrite H3. erewrite bind_val by (by apply verts_get). reflexivity. }
  rewrite H4, H5. cbn [option_map]. erewrite bind_val by apply need_val. erewrite bind_val by apply need_val.
  destruct (_ && _) eqn:Es; [|done]. exfalso. apply HN. destruct xu, xv. simpl in *. by apply andb_true_iff.
Qed.
Lemma clean_up_noop s : (forall e, e ∈ s_edges s -> exists t u v xu xv, twin A s e = Some t /\ org s e = Some (OVx u) /\ org s t = Some (OVx v) /\
  xyof s u = Some xu /\ xyof s v = Some xv /\ ~ near (Some xu) (Some xv)) -> clean_up_zero_length_edges A s = Val (s, tt).
Proof.
  intros H. unfold clean_up_zero_length_edges. erewrite bind_val by reflexivity.
  assert (HL : forall es, (forall e, e ∈ es -> e ∈ s_edges s) -> clean_loop A es s = Val (s, es)).
  { induction es as [|e es IH]; intros Hs; [done|]. cbn [clean_loop]. destruct (H e) as (t & u & v & xu & xv & H1 & H2 & H3 & H4 & H5 & H6); [apply Hs; by left|].
    erewrite bind_val by (by eapply clean_edge_noop). erewrite bind_val by (apply IH; intros x Hx; apply Hs; by right). done. }
  erewrite bind_val by (by apply HL). unfold write. by destruct s.
Qed.
End Clean.
