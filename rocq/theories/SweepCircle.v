(* SweepCircle.v -- what a circle event does, and that it keeps the invariant. *)
From stdpp Require Import base list sets.
From Coq Require Import ZArith Lia.
From Verif Require Import Arith Geom Monad Tree Heapq State Sweep HeapqProofs TreeProofs TreeOps TreeSearch Beach SweepBase Dcel SweepInv SweepTrans SweepSite.
Local Open Scope monad_scope.

Lemma sublist_NoDup {X} (l k : list X) : NoDup l -> k `sublist_of` l -> NoDup k.
Proof.
  intros H S. induction S as [|x l1 l2 S IH|x l1 l2 S IH]; [done| |].
  - apply NoDup_cons in H as [H1 H2]. apply NoDup_cons. split; [|auto]. intros Hx. apply H1.
    eapply elem_of_submseteq; [exact Hx|]. by apply sublist_submseteq.
  - apply NoDup_cons in H as [_ H2]. auto.
Qed.

Section Circle.
Context (A : Arith).
Notation St := (state A).
Implicit Types s : St.

Lemma post_nodes {EX : allowed} {X} s (m : M (list (node ndata)) X) (P : exn -> Prop) (Q : St -> X -> Prop) :
  (forall e, P e -> may_raise e) ->
  match m (s_nodes s) with Raise e => P e | Val (h', x) => h' = s_nodes s /\ Q s x end ->
  post (nodes_do m s) Q.
Proof.
  intros HP. unfold nodes_do, zoom. destruct (m (s_nodes s)) as [[h' x]|e]; simpl; [|apply HP].
  intros [-> HQ]. by destruct s.
Qed.

(* the search for the breakpoint of a pair *)
Lemma find_bp {EX : allowed} s t done k0 h' t' l i j q (o : option nat) :
  (forall n x e, n ∈ inord t -> s_nodes s !! n = Some x -> node_key A s l x = Raise e -> may_raise e) ->
  TotalOrder A -> Inv A s t done k0 -> same_data (s_nodes s) h' -> rep h' None t' -> (forall n, n ∈ inord t' -> n ∈ inord t) -> NoDup (inord t') ->
  q ∈ inord t' -> label A s q = Some (i, j) -> o = rootid t' ->
  post (nodes_do (find_value (node_key A (set_nodes h' s) l) (dltb A) (deqb A) o (bp_key A (set_nodes h' s) l i j)
                     (same_breakpoint A (set_nodes h' s) i j)) (set_nodes h' s))
    (fun s' r => s' = set_nodes h' s /\ r = Some q).
Proof.
  intros HKX TO HI D R Hsub HN Hq Hlab ->.
  assert (Hd : forall n x, h' !! n = Some x -> exists y, s_nodes s !! n = Some y /\ n_data x = n_data y).
  { intros n x Hx. pose proof (f_equal (fun z => z !! n) D) as Hn. simpl in Hn.
    change (map n_data h') with (n_data <$> h') in Hn. change (map n_data (s_nodes s)) with (n_data <$> s_nodes s) in Hn.
    rewrite !list_lookup_fmap, Hx in Hn. destruct (s_nodes s !! n) as [y|]; [|done]. simpl in Hn. injection Hn as Hn. eauto. }
  assert (Hk : forall x y, n_data x = n_data y -> node_key A (set_nodes h' s) l x = node_key A s l y).
  { intros x y Hxy. unfold node_key. rewrite Hxy. done. }
  assert (Hbk : bp_key A (set_nodes h' s) l i j = bp_key A s l i j) by done.
  assert (Hij : (exists xy, pxy A s i = Some xy) /\ exists xy, pxy A s j = Some xy).
  { destruct (inv_node A _ _ _ _ q HI) as [(p & Hs & _)|(p & q' & _ & HL & _ & _ & _ & ? & ?)]; [by apply Hsub| |].
    - apply site_label in Hs. congruence.
    - assert (p = i /\ q' = j) as [-> ->] by (split; congruence). done. }
  assert (Hcmp : forall n x, n ∈ inord t' -> h' !! n = Some x -> same_breakpoint A (set_nodes h' s) i j (n_data x) = true -> label A s n = Some (i, j)).
  { intros n x Hn Hx. destruct (Hd n x Hx) as (y & Hy & ->). unfold same_breakpoint, label, bpid. rewrite Hy. simpl.
    destruct (n_data y) as [|b]; [done|]. simpl. destruct (s_bps s !! b) as [z|]; [|done]. simpl.
    intros [H1%Nat.eqb_eq H2%Nat.eqb_eq]%andb_true_iff. by subst. }
  eapply post_nodes with (P := may_raise); [done|].
  change (s_nodes (set_nodes h' s)) with h'.
  pose proof (find_value_spec (node_key A (set_nodes h' s) l) (dltb A) (deqb A) may_raise h' None t' (bp_key A (set_nodes h' s) l i j)
     (same_breakpoint A (set_nodes h' s) i j) R HN) as HF.
  feed specialize HF.
  - intros e. rewrite Hbk. destruct (rep_lookup _ _ _ q R Hq) as [x Hx]. destruct (Hd q x Hx) as (y & Hy & Hxy).
    rewrite <- (node_key_label A s l q y i j Hlab Hy). intros Hr. eapply (HKX q y); eauto.
  - intros n x e Hn Hx. destruct (Hd n x Hx) as (y & Hy & Hxy). rewrite (Hk x y Hxy). eapply (HKX n y); eauto.
  - intros n x k kx Hn Hx Hc. rewrite Hbk. destruct (Hd n x Hx) as (y & Hy & Hxy). rewrite (Hk x y Hxy).
    rewrite (node_key_label A s l n y i j) by eauto. intros -> [= ->].
    by rewrite (to_eqb _ TO), !(to_irrefl _ TO).
  - destruct (find_value _ _ _ _ _ _ _) as [[h2 [n|]]|e]; [| |done].
    + destruct HF as (-> & Hn & x & Hx & Hc). split; [done|]. split; [done|]. f_equal.
      pose proof (Hcmp n x Hn Hx Hc) as Hl. pose proof (Hsub n Hn) as Hn'. pose proof (Hsub q Hq) as Hq'.
      apply elem_of_list_split in Hn' as (l1 & l2 & E1). apply elem_of_list_split in Hq' as (l1' & l2' & E2).
      eapply (label_unique _ _ (site_label A s)); [exact (i_chain _ _ _ _ _ HI)|exact (i_nc _ _ _ _ _ HI)|exact (i_nodup _ _ _ _ _ HI)|exact E1|exact E2|exact Hl|exact Hlab].
    + exfalso. destruct HF as (_ & HF). destruct (rep_lookup _ _ _ q R Hq) as [x Hx].
      specialize (HF q x Hq Hx). destruct (Hd q x Hx) as (y & Hy & Hxy). rewrite Hxy in HF.
      unfold label, bpid in Hlab. rewrite Hy in Hlab. simpl in Hlab. unfold same_breakpoint in HF.
      destruct (n_data y) as [|b']; [done|]. simpl in *. destruct (s_bps s !! b') as [z|]; [|done]. simpl in *.
      injection Hlab as <- <-. by rewrite !Nat.eqb_refl in HF.
Qed.

Lemma same_data_reads s h' : same_data (s_nodes s) h' ->
  (forall n, arcid A (set_nodes h' s) n = arcid A s n) /\ (forall n, bpid A (set_nodes h' s) n = bpid A s n) /\
  (forall n, site A (set_nodes h' s) n = site A s n).
Proof.
  intros D. assert (Hd : dat A (set_nodes h' s) = dat A s) by exact D.
  assert (Ea : forall n, arcid A (set_nodes h' s) n = arcid A s n) by (intros n; by rewrite !arcid_dat, Hd).
  split; [done|]. split; [intros n; by rewrite !bpid_dat, Hd|]. intros n. unfold site. by rewrite Ea.
Qed.

Definition upd_result s a c L1 l b1 b2 m L2 s' (r : nat * option nat * nat * option nat * option nat) : Prop :=
  exists h' t' root u bu bo B1 B2 x, rep h' None t' /\ full t' /\ Hok h' /\ same_data (s_nodes s) h' /\ rootid t' = Some root /\
    inord t' = L1 ++ l :: u :: m :: L2 /\ bpid A s b1 = Some B1 /\ bpid A s b2 = Some B2 /\
    ((u = b1 /\ bu = B1 /\ bo = B2) \/ (u = b2 /\ bu = B2 /\ bo = B1)) /\
    s_bps s !! bu = Some x /\
    s' = set_bps (<[bu := mkBp a c (b_edge x)]> (s_bps s)) (set_nodes h' s) /\
    r = (root, Some bu, bo, Some B1, Some B2).

Lemma update_breakpoints_spec {EX : allowed} s t done k0 n lsw L1 l b1 b2 m L2 a b c :
  (forall n x e, n ∈ inord t -> s_nodes s !! n = Some x -> node_key A s lsw x = Raise e -> may_raise e) ->
  TotalOrder A -> Inv A s t done k0 -> s_sweep s = Some lsw ->
  inord t = (L1 ++ [l; b1]) ++ n :: b2 :: m :: L2 ->
  site A s l = Some a -> site A s n = Some b -> site A s m = Some c ->
  post (update_breakpoints A (s_root s) n (Some l) (Some m) s) (upd_result s a c L1 l b1 b2 m L2).
Proof.
  intros HKX TO HI Hsw EL Hl Hn Hm.
  pose proof (i_chain _ _ _ _ _ HI) as HC. pose proof (i_nodup _ _ _ _ _ HI) as HN. pose proof (i_rep _ _ _ _ _ HI) as HR.
  pose proof (i_full _ _ _ _ _ HI) as HF. pose proof (i_hok _ _ _ _ _ HI) as HH.
  assert (HCt : label A s b1 = Some (a, b) /\ label A s b2 = Some (b, c)).
  { rewrite EL, <- app_assoc in HC. simpl in HC. apply (chain_triple _ _ (site_label A s) L1 l b1 n b2 m L2 a b c) in HC; tauto. }
  destruct HCt as [HL1 HL2].
  assert (Hnin : n ∈ inord t) by (rewrite EL; clear; set_solver).
  destruct (inv_site_leaf A _ _ _ _ _ _ HI Hnin Hn) as (C & Et & FC & EC).
  assert (ctx_l C = L1 ++ [l; b1] /\ ctx_r C = b2 :: m :: L2) as [ECl ECr].
  { rewrite EL in EC, HN. apply nodup_pos in EC as [<- <-]; done. }
  destruct (label_inv A s b1 _ HL1) as (nd1 & B1 & x1 & _ & _ & HB1 & Hx1 & HE1).
  destruct (label_inv A s b2 _ HL2) as (nd2 & B2 & x2 & _ & _ & HB2 & Hx2 & HE2).
  pose proof HR as HR'. rewrite Et in HR'. apply rep_plug in HR' as [Rc Rn]. simpl in Rc.
  pose proof Rn as ((xn & Hxn & Hpn & _) & _).
  assert (ND : NoDup (ctx_ids C ++ [n])) by (eapply NoDup_perm; [|rewrite Et in HN; exact HN]; rewrite plug_ids; done).
  assert (Hnc : n ∉ ctx_ids C). { apply NoDup_app in ND as (_ & H & _). intros Hin. apply (H n Hin). clear; set_solver. }
  unfold update_breakpoints.
  eapply post_step; [apply nodes_same; eapply is_left_child_spec; eauto|].
  eapply post_step; [apply nodes_get; exact Hxn|].
  rewrite Hpn. rewrite (i_root _ _ _ _ _ HI).
  destruct C as [|D p r|r p D].
  { exfalso. simpl in ECl. destruct L1; done. }
  - (* left child: the right breakpoint disappears *)
    cbn [ctx_parent]. eapply post_step; [apply need_val|].
    simpl in Rc. destruct Rc as ((xp & Hxp & Hpp & Hpl & Hpr) & Rr & RD).
    eapply post_step; [apply nodes_get; exact Hxp|]. rewrite Hpr.
    simpl in FC. destruct FC as [Fr FD]. destruct r as [|ra rn rb]; [done|].
    simpl in ECl, ECr. injection ECr as -> ECr.
    assert (Hrn : rn <> b2). { intros ->. rewrite Et in HN. simpl in HN. clear - HN.
      rewrite inord_plug in HN. apply NoDup_app in HN as (_ & _ & HN). simpl in HN.
      apply NoDup_cons in HN as [_ HN]. apply NoDup_cons in HN as [HN _]. set_solver. }
    assert (EI2 : inord (plug D (T ra rn rb)) = L1 ++ l :: b1 :: m :: L2).
    { rewrite inord_plug, ECl. simpl inord. rewrite ECr, <- app_assoc. done. }
    assert (HN2 : NoDup (inord (plug D (T ra rn rb)))).
    { rewrite EI2. rewrite EL, <- app_assoc in HN. eapply sublist_NoDup; [exact HN|]. apply sublist_app; [done|]. simpl.
      do 2 apply sublist_skip. do 2 apply sublist_cons. done. }
    edestruct (replace_leaf_spec (s_nodes s) D (T (leaf n) b2 (T ra rn rb)) b2 (T ra rn rb) rn (Some b2)) as (h1 & root1 & E1 & Hroot1 & R1 & D1 & O1).
    { rewrite Et in HR. exact HR. } { done. }
    { eapply NoDup_perm; [|rewrite Et in HN; exact HN]. simpl. by rewrite plug_ids. }
    { exact Rr. } { done. } { done. }
    { eapply NoDup_perm; [|exact HN2]. by rewrite plug_ids. }
    eapply post_step. { apply nodes_val. rewrite Et. exact E1. }
    destruct (same_data_reads s h1 D1) as (Ra1 & Rb1 & Rs1).
    eapply post_step; [apply bp_of_val; rewrite Rb1; exact HB2|].
    assert (exists r1, rootid (plug D (T ra rn rb)) = Some r1) as [r1 Hr1].
    { destruct (plug D (T ra rn rb)) eqn:Ep; [|simpl; eauto]. exfalso. clear - Ep. revert Ep.
      assert (forall D t, t <> E -> plug D t <> E) as H. { clear. intros D. induction D; intros t Ht; simpl; [done|apply IHD; done|apply IHD; done]. }
      apply H. done. }
    rewrite Hroot1, Hr1. eapply post_step; [apply need_val|].
    destruct (balance_and_propagate_spec h1 Top (plug D (T ra rn rb)) r1 R1 Hr1 HN2) as (h2 & r2 & t2 & E2 & Hr2 & EI & R2 & D2 & O2).
    simpl plug in EI, O2.
    destruct (O2 (O1 HH) (full_plug D _ FD Fr)) as [F2 Hok2].
    eapply post_step. { apply nodes_val. exact E2. }
    assert (D12 : same_data (s_nodes s) h2) by (eapply same_data_trans; eauto).
    change (set_nodes h2 (set_nodes h1 s)) with (set_nodes h2 s).
    destruct (same_data_reads s h2 D12) as (Ra2 & Rb2 & Rs2).
    eapply post_step; [apply need_val|].
    eapply post_step; [apply origin_of_val; rewrite Rs2; exact Hl|].
    eapply post_step; [apply origin_of_val; rewrite Rs2; exact Hn|].
    eapply post_step. { unfold sweep_line. erewrite bind_val by reflexivity. change (s_sweep (set_nodes h2 s)) with (s_sweep s). rewrite Hsw. reflexivity. }
    eapply post_step; [reflexivity|].
    eapply post_bind.
    { eapply (find_bp s t done k0 h2 t2 lsw a b b1); auto.
      - intros q. rewrite EI, EI2, EL. clear. set_solver.
      - rewrite EI. done.
      - rewrite EI, EI2. clear; set_solver. }
    intros s2 o (-> & ->).
    eapply post_step; [apply bp_of_val; rewrite Rb2; exact HB1|].
    eapply post_step; [apply need_val|].
    eapply post_step; [apply origin_of_val; rewrite Rs2; exact Hm|].
    eapply post_step; [apply bps_upd; exact Hx1|].
    cbn [post ret]. exists h2, t2, r2, b1, B1, B2, B1, B2, x1.
    split; [done|]. split; [done|]. split; [done|]. split; [done|]. split; [done|]. split; [by rewrite EI, EI2|].
    split; [done|]. split; [done|]. split; [auto|]. split; [done|].
    split; [|done]. injection HE1 as -> ->. unfold with_bp_pair. done.
  - (* right child: the left breakpoint disappears *)
    cbn [ctx_parent]. eapply post_step; [apply need_val|].
    simpl in Rc. destruct Rc as ((xp & Hxp & Hpp & Hpl & Hpr) & Rr & RD).
    eapply post_step; [apply nodes_get; exact Hxp|]. rewrite Hpl.
    simpl in FC. destruct FC as [Fr FD]. destruct r as [|ra rn rb]; [done|].
    simpl in ECl, ECr. 
    assert (p = b1 /\ ctx_l D ++ inord (T ra rn rb) = L1 ++ [l]) as [-> ECl'].
    { change (L1 ++ [l; b1]) with (L1 ++ [l] ++ [b1]) in ECl. change ((inord ra ++ rn :: inord rb) ++ [p]) with (inord (T ra rn rb) ++ [p]) in ECl.
      rewrite !(app_assoc _ _ [_]) in ECl. apply app_inj_tail in ECl as [E1 E2]. auto. }
    assert (Hrn : rn <> b1). { intros ->. rewrite Et in HN. simpl in HN. clear - HN.
      rewrite inord_plug in HN. apply NoDup_app in HN as (_ & _ & HN). apply NoDup_app in HN as (HN & _).
      simpl in HN. apply NoDup_app in HN as (_ & HN & _). apply (HN b1); set_solver. }
    assert (EI2 : inord (plug D (T ra rn rb)) = L1 ++ l :: b2 :: m :: L2).
    { rewrite inord_plug, app_assoc, ECl', ECr, <- app_assoc. done. }
    assert (HN2 : NoDup (inord (plug D (T ra rn rb)))).
    { rewrite EI2. rewrite EL, <- app_assoc in HN. eapply sublist_NoDup; [exact HN|]. apply sublist_app; [done|]. simpl.
      apply sublist_skip. do 2 apply sublist_cons. done. }
    edestruct (replace_leaf_spec (s_nodes s) D (T (T ra rn rb) b1 (leaf n)) b1 (T ra rn rb) rn (Some b1)) as (h1 & root1 & E1 & Hroot1 & R1 & D1 & O1).
    { rewrite Et in HR. exact HR. } { done. }
    { eapply NoDup_perm; [|rewrite Et in HN; exact HN]. simpl. by rewrite plug_ids. }
    { exact Rr. } { done. } { done. }
    { eapply NoDup_perm; [|exact HN2]. by rewrite plug_ids. }
    eapply post_step. { apply nodes_val. rewrite Et. exact E1. }
    destruct (same_data_reads s h1 D1) as (Ra1 & Rb1 & Rs1).
    eapply post_step; [apply bp_of_val; rewrite Rb1; exact HB1|].
    assert (exists r1, rootid (plug D (T ra rn rb)) = Some r1) as [r1 Hr1].
    { destruct (plug D (T ra rn rb)) eqn:Ep; [|simpl; eauto]. exfalso. clear - Ep. revert Ep.
      assert (forall D t, t <> E -> plug D t <> E) as H. { clear. intros D. induction D; intros t Ht; simpl; [done|apply IHD; done|apply IHD; done]. }
      apply H. done. }
    rewrite Hroot1, Hr1. eapply post_step; [apply need_val|].
    destruct (balance_and_propagate_spec h1 Top (plug D (T ra rn rb)) r1 R1 Hr1 HN2) as (h2 & r2 & t2 & E2 & Hr2 & EI & R2 & D2 & O2).
    simpl plug in EI, O2.
    destruct (O2 (O1 HH) (full_plug D _ FD Fr)) as [F2 Hok2].
    eapply post_step. { apply nodes_val. exact E2. }
    assert (D12 : same_data (s_nodes s) h2) by (eapply same_data_trans; eauto).
    change (set_nodes h2 (set_nodes h1 s)) with (set_nodes h2 s).
    destruct (same_data_reads s h2 D12) as (Ra2 & Rb2 & Rs2).
    eapply post_step; [apply origin_of_val; rewrite Rs2; exact Hn|].
    eapply post_step; [apply need_val|].
    eapply post_step; [apply origin_of_val; rewrite Rs2; exact Hm|].
    eapply post_step. { unfold sweep_line. erewrite bind_val by reflexivity. change (s_sweep (set_nodes h2 s)) with (s_sweep s). rewrite Hsw. reflexivity. }
    eapply post_step; [reflexivity|].
    eapply post_bind.
    { eapply (find_bp s t done k0 h2 t2 lsw b c b2); auto.
      - intros q. rewrite EI, EI2, EL. clear. set_solver.
      - rewrite EI. done.
      - rewrite EI, EI2. clear; set_solver. }
    intros s2 o (-> & ->).
    eapply post_step; [apply bp_of_val; rewrite Rb2; exact HB2|].
    eapply post_step; [apply need_val|].
    eapply post_step; [apply origin_of_val; rewrite Rs2; exact Hl|].
    eapply post_step; [apply bps_upd; exact Hx2|].
    cbn [post ret]. exists h2, t2, r2, b2, B2, B1, B1, B2, x2.
    split; [done|]. split; [done|]. split; [done|]. split; [done|]. split; [done|]. split; [by rewrite EI, EI2|].
    split; [done|]. split; [done|]. split; [auto|]. split; [done|].
    split; [|done]. injection HE2 as -> ->. unfold with_bp_pair. done.
Qed.

(* ---------- steps on the half-edge store ---------- *)
Definition at_ {X} (e : nat) (f : X -> X) (F : nat -> X -> X) : nat -> X -> X := fun i h => if decide (i = e) then f (F i h) else F i h.
Lemma imap_id {X} (l : list X) : imap (fun _ h => h) l = l.
Proof. apply list_eq. intros i. rewrite list_lookup_imap. by destruct (l !! i). Qed.
Lemma imap_at {X} (F : nat -> X -> X) l k e h f : l !! e = Some h -> <[e := f (F e h)]> (imap F l ++ k) = imap (at_ e f F) l ++ k.
Proof.
  intros H. rewrite insert_app_l by (rewrite imap_length; eapply lookup_lt_Some; eauto). f_equal.
  apply list_eq. intros i. rewrite list_lookup_imap. unfold at_. destruct (decide (i = e)) as [->|].
  - rewrite list_lookup_insert by (rewrite imap_length; eapply lookup_lt_Some; eauto). by rewrite H.
  - rewrite list_lookup_insert_ne by done. rewrite list_lookup_imap. done.
Qed.
Lemma imap_look {X} (F : nat -> X -> X) l k e h : l !! e = Some h -> (imap F l ++ k) !! e = Some (F e h).
Proof. intros H. apply look_l. by rewrite list_lookup_imap, H. Qed.
Lemma hedges_old s F hs k e h f : s_hedges s = imap F hs ++ k -> hs !! e = Some h ->
  hedges_do (upd_at e f) s = Val (set_hedges (imap (at_ e f F) hs ++ k) s, tt).
Proof. intros E H. erewrite hedges_upd by (rewrite E; by apply imap_look). by rewrite E, imap_at. Qed.
Lemma hedges_new s l k i x f E : s_hedges s = l ++ k -> length l = E -> k !! i = Some x ->
  hedges_do (upd_at (E + i) f) s = Val (set_hedges (l ++ <[i := f x]> k) s, tt).
Proof. intros H <- Hx. erewrite hedges_upd by (rewrite H, look_plus; exact Hx). by rewrite H, insert_app_r. Qed.
Lemma set_next_split s e n : set_next e (Some n) s = bind (hedges_do (upd_at n (with_h_prev (Some e)))) (fun _ => hedges_do (upd_at e (with_h_next (Some n)))) s.
Proof.
  unfold set_next, hedges_do, zoom, bind. destruct (upd_at n _ (s_hedges s)) as [[h []]|ex]; [|done].
  change (s_hedges (set_hedges h s)) with h. by destruct (upd_at e _ h) as [[h' []]|ex].
Qed.
Lemma twin_old s F hs k e h t : s_hedges s = imap F hs ++ k -> hs !! e = Some h -> h_twin h = Some t ->
  (forall i h, h_twin (F i h) = h_twin h) -> twin_of e s = Val (s, t).
Proof.
  intros E H Ht HF. unfold twin_of. erewrite bind_val by (apply hedges_get; rewrite E; by apply imap_look).
  rewrite HF, Ht. done.
Qed.
Lemma twin_new s l k i x E t : s_hedges s = l ++ k -> length l = E -> k !! i = Some x -> h_twin x = Some t -> twin_of (E + i) s = Val (s, t).
Proof. intros H <- Hx Ht. unfold twin_of. erewrite bind_val by (apply hedges_get; rewrite H, look_plus; exact Hx). by rewrite Ht. Qed.
Lemma edge_of_val s b x e : s_bps s !! b = Some x -> b_edge x = Some e -> edge_of A b s = Val (s, e).
Proof. intros H He. unfold edge_of. erewrite bind_val by (by apply bps_get). by rewrite He. Qed.
Lemma remove_neighbor_val s n a x : arcid A s n = Some a -> s_arcs s !! a = Some x -> (forall k, a_cev x = Some k -> exists e, s_cevs s !! k = Some e) ->
  remove_neighbor A (Some n) s = Val (set_cevs (drop_cev A (a_cev x) (s_cevs s)) (with_log A s (match a_cev x with Some _ => [dbg A s] | None => [] end)), tt).
Proof.
  intros Ha Hx Hk. unfold remove_neighbor. erewrite bind_val by apply need_val.
  erewrite bind_val by (by apply arc_of_val). erewrite bind_val by (by apply arcs_get).
  destruct (a_cev x) as [k|] eqn:E.
  - destruct (Hk k eq_refl) as [e He]. erewrite bind_val by reflexivity.
    unfold cev_remove. erewrite cevs_upd by (simpl; exact He). rewrite <- (drop_cev_eq A _ k e He). done.
  - rewrite with_log_nil. simpl. by destruct s.
Qed.

Lemma conn_append_val s vs w e : s_verts s = vs ++ [w] ->
  conn_append (length vs) e s = Val (set_verts (vs ++ [with_v_conn (v_conn w ++ [e]) w]) s, tt).
Proof.
  intros E. unfold conn_append. erewrite verts_upd.
  - rewrite E. rewrite <- (Nat.add_0_r (length vs)), insert_app_r. reflexivity.
  - rewrite E. by apply list_lookup_middle.
Qed.
Lemma new_hedge_none' s l k inc o E : s_hedges s = l ++ k -> length l = E ->
  new_hedge inc None o s = Val (set_hedges (l ++ (k ++ [mkHedge o inc None None None])) s, E + length k).
Proof. intros H <-. by apply new_hedge_none. Qed.
Lemma new_hedge_some' s l k inc o i x E : s_hedges s = l ++ k -> length l = E -> (k ++ [mkHedge o inc (Some (E + i)) None None]) !! i = Some x ->
  new_hedge inc (Some (E + i)) o s =
    Val (set_hedges (l ++ <[i := with_h_twin (Some (E + length k)) x]> (k ++ [mkHedge o inc (Some (E + i)) None None])) s, E + length k).
Proof. intros H <-. by apply new_hedge_some. Qed.
Lemma bind_set_next {X} s e n (k : unit -> M St X) :
  bind (set_next e (Some n)) k s = bind (hedges_do (upd_at n (with_h_prev (Some e)))) (fun _ => bind (hedges_do (upd_at e (with_h_next (Some n)))) k) s.
Proof.
  unfold bind at 1. rewrite set_next_split. unfold bind. destruct (hedges_do (upd_at n _) s) as [[s1 x]|]; [|done].
  done.
Qed.

Definition circle_tail (pred succ : option nat) : M St unit :=
  former_left <- need pred;; former_right <- need succ;;
  na <- nodes_do (predecessor former_left);;
  nc <- nodes_do (successor former_left);;
  nd <- nodes_do (predecessor former_right);;
  nf <- nodes_do (successor former_right);;
  check_circles A na (Some former_left) nc nd (Some former_right) nf.

Definition handle_circle_event' (ev : nat) : M (state A) unit :=
  e <- cevs_do (get_at ev);;
  let arc_node := c_node e in
  a <- arc_of A arc_node;;
  write (fun s => set_arcset (List.filter (fun b => negb (b =? a)%nat) (s_arcset s)) s);;;
  pred <- nodes_do (predecessor arc_node);;
  succ <- nodes_do (successor arc_node);;
  tree <- read s_root;;
  '(root, updated, removed, lbp, rbp) <- update_breakpoints A tree arc_node pred succ;;
  write (set_root (Some root));;;
  match updated with
  | None => ret tt
  | Some upd =>
      remove_neighbor A pred;;;
      remove_neighbor A succ;;;
      v <- verts_do (alloc (mkVertex (Some (c_x e, c_y e)) []));;
      vertices_add A v;;;
      eu <- edge_of A upd;;
      hedges_do (upd_at eu (with_h_origin (OVx v)));;;
      er <- edge_of A removed;;
      hedges_do (upd_at er (with_h_origin (OVx v)));;;
      conn_append v eu;;;
      conn_append v er;;;
      xu <- bps_do (get_at upd);;
      t <- new_hedge (Some (b_r xu)) None (OBp upd);;
      new_edge <- new_hedge (Some (b_l xu)) (Some t) (OVx v);;
      bl <- need lbp;; br <- need rbp;;
      el <- edge_of A bl;; tl <- twin_of el;; set_next tl (Some new_edge);;;
      eR <- edge_of A br;; tr <- twin_of eR;; set_next tr (Some el);;;
      tn <- twin_of new_edge;; set_next tn (Some eR);;;
      write (fun s => set_edges (s_edges s ++ [new_edge]) s);;;
      conn_append v new_edge;;;
      tn' <- twin_of new_edge;;
      bps_do (upd_at upd (with_bp_edge (Some tn')));;;
      circle_tail pred succ
  end.
Lemma handle_circle_event_eq k : handle_circle_event A k = handle_circle_event' k.
Proof. reflexivity. Qed.

(* the state before the new triples are examined *)
Record circle_mid s t e L1 l b1 b2 m L2 a b c s1 t' u bu bo B1 B2 el er tl tr xl xm : Prop := {
  m_inord : inord t = (L1 ++ [l; b1]) ++ c_node e :: b2 :: m :: L2;
  m_inord' : inord t' = L1 ++ l :: u :: m :: L2;
  m_rep : rep (s_nodes s1) None t'; m_full : full t'; m_hok : Hok (s_nodes s1); m_data : same_data (s_nodes s) (s_nodes s1);
  m_root : s_root s1 = rootid t';
  m_b1 : bpid A s b1 = Some B1; m_b2 : bpid A s b2 = Some B2;
  m_u : (u = b1 /\ bu = B1 /\ bo = B2) \/ (u = b2 /\ bu = B2 /\ bo = B1);
  m_arcs : s_arcs s1 = s_arcs s;
  m_bps : s_bps s1 = <[bu := mkBp a c (Some (length (s_hedges s)))]> (s_bps s);
  m_e1 : exists x, s_bps s !! B1 = Some x /\ b_edge x = Some el /\ b_l x = a /\ b_r x = b;
  m_e2 : exists x, s_bps s !! B2 = Some x /\ b_edge x = Some er /\ b_l x = b /\ b_r x = c;
  m_el : exists h, s_hedges s !! el = Some h /\ h_twin h = Some tl /\ h_origin h = OBp B1;
  m_er : exists h, s_hedges s !! er = Some h /\ h_twin h = Some tr /\ h_origin h = OBp B2;
  m_hedges : s_hedges s1 = add_vertex (s_hedges s) (length (s_verts s)) el er tl tr a c bu;
  m_verts : exists conn, conn ≡ₚ [el; er; S (length (s_hedges s))] /\
     s_verts s1 = s_verts s ++ [mkVertex (Some (c_x e, c_y e)) conn];
  m_vset : s_vset s1 = s_vset s ++ [length (s_verts s)];
  m_edges : s_edges s1 = s_edges s ++ [S (length (s_hedges s))];
  m_xl : exists n, arcid A s l = Some n /\ s_arcs s !! n = Some xl;
  m_xm : exists n, arcid A s m = Some n /\ s_arcs s !! n = Some xm;
  m_cevs : s_cevs s1 = drop_cev A (a_cev xm) (drop_cev A (a_cev xl) (s_cevs s));
  m_arcset : exists n, arcid A s (c_node e) = Some n /\ s_arcset s1 = List.filter (fun b => negb (b =? n)%nat) (s_arcset s);
  m_points : s_points s1 = s_points s; m_queue : s_queue s1 = s_queue s;
  m_vlist : s_vlist s1 = s_vlist s;
  m_frame : s_sweep s1 = s_sweep s /\ s_sites s1 = s_sites s /\ s_event s1 = s_event s /\ s_pverts s1 = s_pverts s;
  m_log : exists lg, s_log s1 = s_log s ++ lg /\ Forall (eq (dbg A s)) lg
}.

Lemma circle_run {EX : allowed} s t done k0 k e lsw L1 l b1 b2 m L2 a b c Q :
  (forall n x e, n ∈ inord t -> s_nodes s !! n = Some x -> node_key A s lsw x = Raise e -> may_raise e) ->
  TotalOrder A -> Inv A s t done k0 -> s_sweep s = Some lsw -> s_cevs s !! k = Some e ->
  inord t = (L1 ++ [l; b1]) ++ c_node e :: b2 :: m :: L2 ->
  site A s l = Some a -> site A s (c_node e) = Some b -> site A s m = Some c -> a <> c ->
  (forall s1 t' u bu bo B1 B2 el er tl tr xl xm,
     circle_mid s t e L1 l b1 b2 m L2 a b c s1 t' u bu bo B1 B2 el er tl tr xl xm ->
     post (circle_tail (Some l) (Some m) s1) Q) ->
  post (handle_circle_event A k s) Q.
Proof.
  intros HKX TO HI Hsw Hk EL Hl Hn Hm Hac HQ.
  pose proof (i_chain _ _ _ _ _ HI) as HC. pose proof (i_nodup _ _ _ _ _ HI) as HN. pose proof (i_rep _ _ _ _ _ HI) as HR.
  assert (HCt : label A s b1 = Some (a, b) /\ label A s b2 = Some (b, c)).
  { rewrite EL, <- app_assoc in HC. simpl in HC. apply (chain_triple _ _ (site_label A s) L1 l b1 (c_node e) b2 m L2 a b c) in HC; tauto. }
  destruct HCt as [HL1 HL2].
  assert (Hnin : c_node e ∈ inord t) by (rewrite EL; clear; set_solver).
  assert (Hlin : l ∈ inord t) by (rewrite EL; clear; set_solver).
  assert (Hmin : m ∈ inord t) by (rewrite EL; clear; set_solver).
  assert (Hb1in : b1 ∈ inord t) by (rewrite EL; clear; set_solver).
  assert (Hb2in : b2 ∈ inord t) by (rewrite EL; clear; set_solver).
  destruct (inv_site_leaf A _ _ _ _ _ _ HI Hnin Hn) as (C & Et & FC & EC).
  assert (ctx_l C = L1 ++ [l; b1] /\ ctx_r C = b2 :: m :: L2) as [ECl ECr].
  { rewrite EL in EC, HN. apply nodup_pos in EC as [<- <-]; done. }
  destruct (site_inv A _ _ _ Hn) as (ndn & an & xn & _ & _ & Han & _ & _).
  destruct (site_inv A _ _ _ Hl) as (ndl & al & xl & _ & _ & Hal & Hxl & _).
  destruct (site_inv A _ _ _ Hm) as (ndm & am & xm & _ & _ & Ham & Hxm & _).
  destruct (label_inv A s b1 _ HL1) as (nd1 & B1 & x1 & _ & _ & HB1 & Hx1 & HE1). injection HE1 as HE1a HE1b.
  destruct (label_inv A s b2 _ HL2) as (nd2 & B2 & x2 & _ & _ & HB2 & Hx2 & HE2). injection HE2 as HE2a HE2b.
  assert (Hbb : b1 <> b2).
  { intros <-. rewrite EL in HN. clear - HN. rewrite <- app_assoc in HN. apply NoDup_app in HN as (_ & _ & HN). simpl in HN.
    apply NoDup_cons in HN as [_ HN]. apply NoDup_cons in HN as [HN _]. set_solver. }
  assert (HBB : B1 <> B2).
  { intros <-. apply Hbb. eapply (i_bps _ _ _ _ _ HI); eauto. }
  destruct (i_open _ _ _ _ _ HI b1 B1 Hb1in HB1) as (x1' & el & hl & G1 & G2 & G3 & G4).
  assert (x1' = x1) as -> by congruence. clear G1.
  destruct (i_open _ _ _ _ _ HI b2 B2 Hb2in HB2) as (x2' & er & hr & G5 & G6 & G7 & G8).
  assert (x2' = x2) as -> by congruence. clear G5.
  pose proof (i_dcel _ _ _ _ _ HI) as HD.
  destruct (d_twin _ _ _ _ _ _ _ _ HD el hl G3) as (tl & htl & pl & ql & T1 & T2 & T3 & T4 & T5 & T6 & T7).
  destruct (d_twin _ _ _ _ _ _ _ _ HD er hr G7) as (tr & htr & pr & qr & U1 & U2 & U3 & U4 & U5 & U6 & U7).
  assert (Ilr : h_inc hl = Some b /\ h_inc htl = Some a /\ h_inc hr = Some c /\ h_inc htr = Some b).
  { destruct (d_open _ _ _ _ _ _ _ _ HD el hl B1 G3 G4) as (y & f & g & Y1 & Y2 & Y3 & Y4 & Y5 & Y6).
    destruct (d_open _ _ _ _ _ _ _ _ HD er hr B2 G7 G8) as (z & f' & g' & Z1 & Z2 & Z3 & Z4 & Z5 & Z6).
    split; [congruence|]. split; [congruence|]. split; congruence. }
  assert (Nlr : el <> er) by (intros ->; congruence).
  assert (Ntl : tl <> er) by (intros ->; destruct Ilr as (?&?&?&?); congruence).
  assert (Ntr : tr <> el) by (intros ->; destruct Ilr as (?&?&?&?); congruence).
  assert (Ntt : tl <> tr) by (intros ->; congruence).
  rewrite handle_circle_event_eq. unfold handle_circle_event'.
  eapply post_step; [apply cevs_get; exact Hk|].
  eapply post_step; [apply arc_of_val; exact Han|].
  eapply post_step; [reflexivity|].
  set (s0 := set_arcset _ s).
  assert (HI0 : Inv A s0 t done k0) by (destruct HI; constructor; assumption).
  eapply post_step. { apply nodes_same. rewrite Et in HR, HN. exact (predecessor_leaf_spec _ C _ HR HN). }
  eapply post_step. { apply nodes_same. rewrite Et in HR, HN. exact (successor_leaf_spec _ C _ HR HN). }
  rewrite pred_ctx, succ_ctx, ECl, ECr by done. unfold pred_leaf. rewrite rev_app_distr. simpl rev. cbn [app succ_leaf].
  eapply post_step; [reflexivity|].
  eapply post_bind; [eapply (update_breakpoints_spec s0 t done k0 (c_node e) lsw L1 l b1 b2 m L2 a b c); eauto|].
  intros s' r (h' & t' & root & u & bu & bo & B1' & B2' & x & R' & F' & O' & D' & Hr' & EI' & HB1' & HB2' & Hu & Hx & -> & ->).
  assert (B1' = B1) as -> by (change (bpid A s0 b1) with (bpid A s b1) in HB1'; congruence).
  assert (B2' = B2) as -> by (change (bpid A s0 b2) with (bpid A s b2) in HB2'; congruence).
  clear HB1' HB2'. change (s_bps s0) with (s_bps s) in *. change (s_nodes s0) with (s_nodes s) in D'.
  cbv beta iota.
  destruct (same_data_reads s h' D') as (Ra & Rb & Rs).
  set (xu := mkBp a c (b_edge x)).
  set (bps1 := <[bu := xu]> (s_bps s)).
  (* edges of the two breakpoints in the changed store *)
  assert (Hbl : exists y, bps1 !! B1 = Some y /\ b_edge y = Some el).
  { unfold bps1. destruct (decide (bu = B1)) as [->|]; [rewrite list_lookup_insert by (eapply lookup_lt_Some; eauto)|rewrite list_lookup_insert_ne by done; eauto].
    eexists; split; [done|]. simpl. congruence. }
  assert (Hbr : exists y, bps1 !! B2 = Some y /\ b_edge y = Some er).
  { unfold bps1. destruct (decide (bu = B2)) as [->|]; [rewrite list_lookup_insert by (eapply lookup_lt_Some; eauto)|rewrite list_lookup_insert_ne by done; eauto].
    eexists; split; [done|]. simpl. congruence. }
  destruct Hbl as (y1 & Hy1 & Hy1e). destruct Hbr as (y2 & Hy2 & Hy2e).
  assert (exists eu eo yu yo hu ho, bps1 !! bu = Some yu /\ b_edge yu = Some eu /\ bps1 !! bo = Some yo /\ b_edge yo = Some eo /\
    s_hedges s !! eu = Some hu /\ s_hedges s !! eo = Some ho /\ ((eu = el /\ eo = er) \/ (eu = er /\ eo = el))) as
    (eu & eo & yu & yo & hu & ho & Hyu & Hyue & Hyo & Hyoe & Hhu & Hho & Heo).
  { destruct Hu as [(-> & -> & ->)|(-> & -> & ->)].
    - exists el, er, y1, y2, hl, hr. auto 10.
    - exists er, el, y2, y1, hr, hl. auto 10. }
  assert (yu = xu) as -> by (unfold bps1 in Hyu; rewrite list_lookup_insert in Hyu by (eapply lookup_lt_Some; eauto); congruence).
  assert (Hcl : forall k, a_cev xl = Some k -> exists e, s_cevs s !! k = Some e).
  { intros k' Hk'. destruct (i_cev _ _ _ _ _ HI l al xl k') as (e' & ? & _); eauto. }
  assert (Hcm : forall k, a_cev xm = Some k -> exists e, drop_cev A (a_cev xl) (s_cevs s) !! k = Some e).
  { intros k' Hk'. destruct (i_cev _ _ _ _ _ HI m am xm k') as (e' & He' & _); eauto.
    destruct (drop_cev_some A (a_cev xl) _ _ _ He') as (e2 & ? & _). eauto. }
  assert (Hvl : s_vlist s = false) by apply (i_vlist _ _ _ _ _ HI).
  assert (Hvset : length (s_verts s) ∉ s_vset s).
  { destruct (d_vset _ _ _ _ _ _ _ _ HD) as [-> Hle]. rewrite elem_of_seq. clear - Hle. lia. }
  unfold s0. clear s0 HI0.
  destruct s as [nodes arcs bps hs vs pts cevs q rt sw sts edges aset vset ev pv lg vl]. nf. cbn [s_nodes s_arcs s_bps s_hedges s_verts s_cevs s_vlist s_vset] in *.
  eapply post_step; [reflexivity|]. nf.
  match goal with |- post (bind _ _ ?s0) _ => set (s2 := s0) end.
  assert (Ra2 : forall n, arcid A s2 n = arcid A (mkState nodes arcs bps hs vs pts cevs q rt sw sts edges aset vset ev pv lg vl) n) by (intros n; rewrite <- Ra; done).
  eapply post_step; [apply (remove_neighbor_val s2 l al xl); [by rewrite Ra2|done|done]|]. unfold with_log, dbg, s2. nf.
  match goal with |- post (bind _ _ ?s0) _ => set (s3 := s0) end.
  assert (Ra3 : forall n, arcid A s3 n = arcid A s2 n) by done.
  eapply post_step; [apply (remove_neighbor_val s3 m am xm); [by rewrite Ra3, Ra2|done|done]|]. unfold with_log, dbg, s3. nf.
  clear s3 Ra3 s2 Ra2.
  eapply post_step; [reflexivity|]. nf.
  eapply post_step. { unfold vertices_add. erewrite bind_val by reflexivity. nf. rewrite Hvl. reflexivity. } nf.
  unfold set_add. rewrite (bool_decide_eq_false_2 _ Hvset).
  eapply post_step; [apply (edge_of_val _ bu xu eu); done|].
  rewrite <- (app_nil_r hs), <- (imap_id hs).
  eapply post_step; [apply (hedges_old _ (fun _ h => h) hs [] eu hu); done|]. nf.
  eapply post_step; [apply (edge_of_val _ bo yo eo); done|].
  eapply post_step; [eapply (hedges_old _ _ hs [] eo ho); [reflexivity|done]|]. nf.
  set (E := length hs) in *.
  eapply post_step; [eapply conn_append_val; reflexivity|]. unfold with_v_conn. nf. cbn [v_conn v_xy app].
  eapply post_step; [eapply conn_append_val; reflexivity|]. unfold with_v_conn. nf. cbn [v_conn v_xy app].
  eapply post_step; [apply (bps_get _ _ bu xu); done|]. cbn [b_l b_r xu].
  eapply post_step; [eapply (new_hedge_none' _ _ [] _ _ E); [reflexivity|apply imap_length]|]. nf.
  eapply post_step; [eapply (new_hedge_some' _ _ [_] _ _ 0 _ E); [reflexivity|apply imap_length|reflexivity]|]. nf. unfold with_h_twin. cbn [h_origin h_inc h_twin h_next h_prev].
  eapply post_step; [apply need_val|]. eapply post_step; [apply need_val|].
  eapply post_step; [apply (edge_of_val _ B1 y1 el); done|].
  eapply post_step; [eapply (twin_old _ _ hs _ el hl); [reflexivity|done|done|intros; unfold at_; repeat case_decide; reflexivity]|].
  rewrite bind_set_next.
  eapply post_step; [eapply (hedges_new _ _ [_; _] 1 _ _ E); [reflexivity|apply imap_length|reflexivity]|]. nf. unfold with_h_prev at 1. cbn [h_origin h_inc h_twin h_next h_prev].
  eapply post_step; [eapply (hedges_old _ _ hs _ tl htl); [reflexivity|done]|]. nf.
  eapply post_step; [apply (edge_of_val _ B2 y2 er); done|].
  eapply post_step; [eapply (twin_old _ _ hs _ er hr); [reflexivity|done|done|intros; unfold at_; repeat case_decide; reflexivity]|].
  rewrite bind_set_next.
  eapply post_step; [eapply (hedges_old _ _ hs _ el hl); [reflexivity|done]|]. nf.
  eapply post_step; [eapply (hedges_old _ _ hs _ tr htr); [reflexivity|done]|]. nf.
  eapply post_step; [eapply (twin_new _ _ [_; _] 1 _ E); [reflexivity|apply imap_length|reflexivity|reflexivity]|].
  rewrite bind_set_next.
  eapply post_step; [eapply (hedges_old _ _ hs _ er hr); [reflexivity|done]|]. nf.
  eapply post_step; [eapply (hedges_new _ _ [_; _] 0 _ _ E); [reflexivity|apply imap_length|reflexivity]|]. nf. unfold with_h_next at 1. cbn [h_origin h_inc h_twin h_next h_prev].
  eapply post_step; [reflexivity|]. nf.
  eapply post_step; [eapply conn_append_val; reflexivity|]. unfold with_v_conn. nf. cbn [v_conn v_xy app].
  eapply post_step; [eapply (twin_new _ _ [_; _] 1 _ E); [reflexivity|apply imap_length|reflexivity|reflexivity]|].
  eapply post_step; [apply (bps_upd _ _ bu xu); done|]. nf.
  unfold bps1. rewrite list_insert_insert. unfold with_bp_edge. cbn [b_l b_r xu].
  match goal with |- post _ _ => idtac end.
  match goal with |- context [imap ?F hs ++ ?k] => assert (EH : imap F hs ++ k = add_vertex hs (length vs) el er tl tr a c bu) end.
  { unfold add_vertex. fold E. rewrite Nat.add_0_r, Nat.add_1_r. f_equal. apply imap_ext. intros i h Hi. unfold upd_he, at_. fold E.
    rewrite ?Nat.add_0_r, ?Nat.add_1_r.
    clear - Nlr Ntl Ntr Ntt T2 U2 Heo. destruct h as [o0 i0 t0 n0 p0].
    destruct Heo as [[-> ->]|[-> ->]]; repeat case_decide; try congruence; try tauto; subst; simpl; try congruence; try tauto. }
  rewrite EH, Nat.add_0_r, Nat.add_1_r. clear EH.
  eapply (HQ _ t' u bu bo B1 B2 el er tl tr xl xm). constructor; nf; auto.
  - eauto 10.
  - eauto 10.
  - eauto 10.
  - eauto 10.
  - eexists. split; [|reflexivity]. destruct Heo as [[-> ->]|[-> ->]]; [done|]. apply Permutation_swap.
  - eauto.
  - eauto.
  - eauto.
  - eexists. split; [rewrite <- app_assoc; reflexivity|]. apply Forall_app.
    split; [destruct (a_cev xl)|destruct (a_cev xm)]; repeat constructor.
Qed.

Lemma dcel_pxy (P P' : nat -> option (pt A)) hs bs vs vset edges k0 : (forall p, P p = P' p) -> dcel A P hs bs vs vset edges k0 -> dcel A P' hs bs vs vset edges k0.
Proof.
  intros H D. destruct D. constructor; auto.
  - intros v Hv. destruct (d_conn v Hv) as (w & Hw & a & b & c & pa & pb & pc & HH).
    exists w. split; [done|]. exists a, b, c, pa, pb, pc. rewrite <- !H. exact HH.
  - intros e h p H1 H2. rewrite <- H. by apply (d_pts e h).
Qed.
Lemma add_vertex_look hs v el er tl tr a c u e h : hs !! e = Some h ->
  add_vertex hs v el er tl tr a c u !! e = Some (upd_he v el er tl tr (length hs) e h).
Proof. intros H. unfold add_vertex. apply look_l. by rewrite list_lookup_imap, H. Qed.

Lemma circle_of_create pa pb pc x y r : circle_of A pa pb pc = Val (Some (x, y, r)) -> create_circle A pa pb pc = Val (Some (x, y, r)).
Proof.
  unfold circle_of. destruct (create_circle A pa pb pc) as [[[[x' y'] r']|]|]; try done.
  destruct (check_clockwise _ _ _ _ _); [|done]. done.
Qed.
Lemma circle_of_clockwise pa pb pc x y r : circle_of A pa pb pc = Val (Some (x, y, r)) -> check_clockwise A pa pb pc (x, y) = true.
Proof.
  unfold circle_of. destruct (create_circle A pa pb pc) as [[[[x' y'] r']|]|]; try done.
  destruct (check_clockwise A pa pb pc (x', y')) eqn:E; [|done]. intros [= <- <- <-]. done.
Qed.

Lemma circle_reads_mid s t e L1 l b1 b2 m L2 a b c s1 t' u bu bo B1 B2 el er tl tr xl xm :
  circle_mid s t e L1 l b1 b2 m L2 a b c s1 t' u bu bo B1 B2 el er tl tr xl xm ->
  (forall n, arcid A s1 n = arcid A s n) /\ (forall n, bpid A s1 n = bpid A s n) /\ (forall n, site A s1 n = site A s n) /\
  (forall p, pxy A s1 p = pxy A s p) /\ (forall n, bpid A s n <> Some bu -> label A s1 n = label A s n) /\ label A s1 u = Some (a, c) /\
  bpid A s u = Some bu.
Proof.
  intros H. assert (Hd : dat A s1 = dat A s) by exact (m_data _ _ _ _ _ _ _ _ _ _ _ _ _ _ _ _ _ _ _ _ _ _ _ _ _ H).
  assert (Ea : forall n, arcid A s1 n = arcid A s n) by (intros n; by rewrite !arcid_dat, Hd).
  assert (Eb : forall n, bpid A s1 n = bpid A s n) by (intros n; by rewrite !bpid_dat, Hd).
  assert (Hub : bpid A s u = Some bu) by (destruct H; destruct m_u0 as [(-> & -> & _)|(-> & -> & _)]; done).
  split; [done|]. split; [done|].
  split. { intros n. unfold site. rewrite Ea. by destruct H as [? ? ? ? ? ? ? ? ? ? ->]. }
  split. { intros p. unfold pxy. destruct H. by rewrite m_points0. }
  destruct H. split.
  - intros n Hn. unfold label. rewrite Eb. destruct (bpid A s n) as [b0|]; [|done]. simpl. rewrite m_bps0.
    rewrite list_lookup_insert_ne by congruence. done.
  - split; [|done]. unfold label. rewrite Eb, Hub. simpl. rewrite m_bps0, list_lookup_insert; [done|].
    destruct m_e3 as (x1 & Hx1 & _), m_e4 as (x2 & Hx2 & _).
    destruct m_u0 as [(-> & -> & _)|(-> & -> & _)]; eapply lookup_lt_Some; eauto.
Qed.

Lemma circle_mid_inv s t done k0 k e L1 l b1 b2 m L2 a b c s1 t' u bu bo B1 B2 el er tl tr xl xm arn xn :
  Inv A s t done k0 ->
  circle_mid s t e L1 l b1 b2 m L2 a b c s1 t' u bu bo B1 B2 el er tl tr xl xm ->
  site A s l = Some a -> site A s (c_node e) = Some b -> site A s m = Some c -> a <> c ->
  is_circle_of A s (a, b, c) e ->
  arcid A s (c_node e) = Some arn -> s_arcs s !! arn = Some xn -> a_cev xn = Some k ->
  (forall it, it ∈ s_queue s -> i_ev it <> ECircle k) ->
  Inv A s1 t' done k0 /\
  (forall k' e', valid_event A s1 k' e' <-> (valid_event A s k' e' /\ c_node e' <> l /\ c_node e' <> m)).
Proof.
  intros HI HM Hl Hn Hm Hac Hcirc Harn Hxn Hkn Hnoq.
  destruct (circle_reads_mid _ _ _ _ _ _ _ _ _ _ _ _ _ _ _ _ _ _ _ _ _ _ _ _ _ HM) as (Ea & Eb & Es & Ep & Elab & Elu & Hub).
  destruct HM as [EL EL' R' F' O' D' Hroot HB1 HB2 Hu Sarcs Sbps (x1 & Hx1 & Hx1e & Hx1l & Hx1r) (x2 & Hx2 & Hx2e & Hx2l & Hx2r)
    (hl & Hhl & Hhlt & Hhlo) (hr & Hhr & Hhrt & Hhro) Shs (conn & Hconn & Sverts) Svset Sedges (al & Hal & Hxl) (am & Ham & Hxm) Scevs _ Spts Squ Svl Sfr Slog].
  pose proof (i_chain _ _ _ _ _ HI) as HC. pose proof (i_nodup _ _ _ _ _ HI) as HN.
  assert (Hb1in : b1 ∈ inord t) by (rewrite EL; clear; set_solver).
  assert (Hb2in : b2 ∈ inord t) by (rewrite EL; clear; set_solver).
  assert (Hlin : l ∈ inord t) by (rewrite EL; clear; set_solver).
  assert (Hmin : m ∈ inord t) by (rewrite EL; clear; set_solver).
  assert (Hnin : c_node e ∈ inord t) by (rewrite EL; clear; set_solver).
  assert (Hsub : forall n, n ∈ inord t' -> n ∈ inord t).
  { intros n. rewrite EL', EL. destruct Hu as [(-> & _)|(-> & _)]; clear; set_solver. }
  assert (Hsubl : inord t' `sublist_of` inord t).
  { rewrite EL', EL, <- app_assoc. apply sublist_app; [done|]. simpl. apply sublist_skip. destruct Hu as [(-> & _)|(-> & _)].
    - apply sublist_skip. do 2 apply sublist_cons. done.
    - do 2 apply sublist_cons. done. }
  assert (HN' : NoDup (inord t')) by (eapply sublist_NoDup; [exact HN|exact Hsubl]).
  assert (Huin : u ∈ inord t) by (apply Hsub; rewrite EL'; clear; set_solver).
  assert (HCt : chain (site A s) (label A s) (L1 ++ [l]) /\ chain (site A s) (label A s) (m :: L2) /\ label A s b1 = Some (a, b) /\ label A s b2 = Some (b, c)).
  { rewrite EL, <- app_assoc in HC. simpl in HC. apply (chain_triple _ _ (site_label A s) L1 l b1 (c_node e) b2 m L2 a b c) in HC; tauto. }
  destruct HCt as (HC1 & HC2 & HL1 & HL2).
  assert (HBB : B1 <> B2).
  { intros <-. assert (b1 = b2) as <-. { eapply (i_bps _ _ _ _ _ HI); [exact Hb1in|exact Hb2in|exact HB1|exact HB2]. }
    rewrite EL in HN. clear - HN. rewrite <- app_assoc in HN. apply NoDup_app in HN as (_ & _ & HN). simpl in HN.
    apply NoDup_cons in HN as [_ HN]. apply NoDup_cons in HN as [HN _]. set_solver. }
  (* the breakpoint that disappears *)
  assert (Hbo : forall n, n ∈ inord t' -> bpid A s n <> Some bo).
  { intros n Hn' Hb. destruct Hu as [(-> & -> & ->)|(-> & -> & ->)].
    - assert (n = b2) as ->. { eapply (i_bps _ _ _ _ _ HI); [by apply Hsub|exact Hb2in|exact Hb|exact HB2]. }
      rewrite EL' in Hn'. rewrite EL, <- app_assoc in HN. clear - HN Hn'. simpl in HN.
      apply NoDup_app in HN as (_ & H1 & H2). rewrite !NoDup_cons in H2. set_solver.
    - assert (n = b1) as ->. { eapply (i_bps _ _ _ _ _ HI); [by apply Hsub|exact Hb1in|exact Hb|exact HB1]. }
      rewrite EL' in Hn'. rewrite EL, <- app_assoc in HN. clear - HN Hn'. simpl in HN.
      apply NoDup_app in HN as (_ & H1 & H2). rewrite !NoDup_cons in H2. set_solver. }
  assert (Hother : forall n, n ∈ L1 ++ l :: m :: L2 -> bpid A s n <> Some bu).
  { intros n Hn' Hb. assert (n = u) as ->.
    { eapply (i_bps _ _ _ _ _ HI); [|exact Huin|exact Hb|exact Hub]. rewrite EL. clear - Hn'. set_solver. }
    rewrite EL' in HN'. clear - HN' Hn'. apply NoDup_app in HN' as (_ & H1 & H2). rewrite !NoDup_cons in H2. set_solver. }
  assert (HBlt : bu < length (s_bps s)).
  { destruct Hu as [(_ & -> & _)|(_ & -> & _)]; eapply lookup_lt_Some; eauto. }
  assert (Hold_cev : forall k' e', s_cevs s1 !! k' = Some e' -> exists e0, s_cevs s !! k' = Some e0 /\ c_node e' = c_node e0 /\
     (c_valid e' = true -> e' = e0 /\ a_cev xl <> Some k' /\ a_cev xm <> Some k')).
  { intros k' e'. rewrite Scevs. intros He'. destruct (drop_cev_look A _ _ _ _ He') as (e2 & He2 & Hv2 & _ & _ & _ & Hn2 & _).
    destruct (drop_cev_look A _ _ _ _ He2) as (e3 & He3 & Hv3 & _ & _ & _ & Hn3 & _). exists e3. split; [done|]. split; [congruence|].
    intros Hv. destruct (Hv2 Hv) as [-> ?]. destruct (Hv3 Hv) as [-> ?]. auto. }
  assert (Hvalid : forall k' e', valid_event A s1 k' e' <-> (valid_event A s k' e' /\ c_node e' <> l /\ c_node e' <> m)).
  { intros k' e'. unfold valid_event. rewrite Squ. split.
    - intros ((it & Hit & Hk) & He & Hv). destruct (Hold_cev _ _ He) as (e0 & He0 & _ & Hve). destruct (Hve Hv) as (-> & N1 & N2).
      split; [eauto|]. pose proof (i_queue _ _ _ _ _ HI it Hit) as HQ. rewrite Hk in HQ. destruct HQ as (e2 & H1 & _ & H3).
      assert (e2 = e0) as -> by congruence.
      destruct (H3 Hv) as (K1 & l0 & b10 & b20 & m0 & K2 & pa & pb & pc & ar' & x & _ & _ & _ & _ & _ & _ & _ & _ & Har' & Hx & Hk').
      split; intros Heq; rewrite Heq in Har'; congruence.
    - intros ((Hit & He & Hv) & N1 & N2). split; [done|]. split; [|done]. rewrite Scevs.
      assert (a_cev xl <> Some k'). { intros Hc. destruct (i_cev _ _ _ _ _ HI l al xl k') as (e2 & H1 & H2); auto. congruence. }
      assert (a_cev xm <> Some k'). { intros Hc. destruct (i_cev _ _ _ _ _ HI m am xm k') as (e2 & H1 & H2); auto. congruence. }
      unfold drop_cev. destruct (a_cev xl), (a_cev xm); rewrite ?list_lookup_alter_ne by congruence; done. }
  split; [|exact Hvalid].
  destruct Hcirc as (pa & pb & pc & HP3 & Hco). pose proof (circle_of_clockwise _ _ _ _ _ _ Hco) as Hcw. apply circle_of_create in Hco.
  assert (HP : pxy A s a = Some pa /\ pxy A s b = Some pb /\ pxy A s c = Some pc).
  { unfold points3 in HP3. destruct (pxy A s a); [|done]. destruct (pxy A s b); [|done]. destruct (pxy A s c); [|done].
    simpl in HP3. injection HP3 as -> -> ->. done. }
  destruct HP as (HPa & HPb & HPc).
  assert (HSite : sites (site A s1) (inord t') = sites (site A s) (inord t')) by (apply sites_ext; auto).
  constructor.
  - done.
  - done.
  - done.
  - done.
  - done.
  - (* chain *)
    rewrite EL'. apply (chain_pair _ _ (site_label A s1) _ _ _ _ _ a c); [by rewrite Es|by rewrite Es|].
    split; [|split; [|done]].
    + eapply chain_mono; [| |exact HC1]; intros n p Hn'; rewrite ?Es; [done|]. intros HL. rewrite Elab; [done|].
      apply Hother. clear - Hn'. set_solver.
    + eapply chain_mono; [| |exact HC2]; intros n p Hn'; rewrite ?Es; [done|]. intros HL. rewrite Elab; [done|].
      apply Hother. clear - Hn'. set_solver.
  - intros n n' x H1 H2. rewrite !Ea. apply (i_arcs _ _ _ _ _ HI); auto.
  - intros n n' x H1 H2. rewrite !Eb. apply (i_bps _ _ _ _ _ HI); auto.
  - rewrite HSite. eapply noncross_sub; [|exact (i_nc _ _ _ _ _ HI)].
    clear - Hsubl. unfold sites. induction Hsubl as [|x l1 l2 S IH|x l1 l2 S IH]; simpl; [done| |].
    + destruct (site A s x); [by apply sublist_skip|done].
    + destruct (site A s x); [by apply sublist_cons|done].
  - intros p. rewrite HSite. intros Hp. apply (i_sites _ _ _ _ _ HI). unfold sites in *. apply elem_of_list_omap in Hp as (n & H1 & H2).
    apply elem_of_list_omap. eauto.
  - intros p Hp. rewrite Ep. by apply (i_pts _ _ _ _ _ HI).
  - (* open *)
    intros n b0 Hn'. rewrite Eb. intros Hb0. unfold open_bp. rewrite Sbps, Shs. destruct (decide (b0 = bu)) as [->|Hne].
    + eexists _, _, _. split; [by apply list_lookup_insert|]. split; [reflexivity|]. split; [|shelve].
      unfold add_vertex. rewrite lookup_app_r by (rewrite imap_length; lia). rewrite imap_length, Nat.sub_diag. reflexivity. Unshelve. reflexivity.
    + destruct (i_open _ _ _ _ _ HI n b0 (Hsub n Hn') Hb0) as (x & e0 & h & G1 & G2 & G3 & G4).
      eexists _, _, _. split; [rewrite list_lookup_insert_ne by done; exact G1|]. split; [exact G2|].
      split; [by apply add_vertex_look|]. simpl. rewrite decide_False; [done|].
      intros [->| ->].
      * assert (b0 = B1) as -> by congruence. apply (Hbo n Hn'). destruct Hu as [(_ & -> & ->)|(_ & -> & ->)]; congruence.
      * assert (b0 = B2) as -> by congruence. apply (Hbo n Hn'). destruct Hu as [(_ & -> & ->)|(_ & -> & ->)]; congruence.
  - (* dcel *)
    apply (dcel_pxy (pxy A s)); [done|]. rewrite Shs, Sbps, Sverts, Svset, Sedges.
    destruct (d_twin _ _ _ _ _ _ _ _ (i_dcel _ _ _ _ _ HI) el hl Hhl) as (tl' & htl & ? & ? & T1 & _ & T3 & _).
    destruct (d_twin _ _ _ _ _ _ _ _ (i_dcel _ _ _ _ _ HI) er hr Hhr) as (tr' & htr & ? & ? & U1 & _ & U3 & _).
    assert (tl' = tl) as -> by congruence. assert (tr' = tr) as -> by congruence.
    eapply (dcel_add_vertex A (pxy A s) _ _ _ _ _ _ el er tl tr hl hr htl htr a b c B1 B2 x1 x2 bu conn); eauto using i_dcel.
    destruct Hu as [(_ & -> & _)|(_ & -> & _)]; auto.
  - rewrite Squ. apply (i_heap _ _ _ _ _ HI).
  - rewrite Squ. apply (i_qnodup _ _ _ _ _ HI).
  - (* queue *)
    intros it. rewrite Squ. intros Hit. pose proof (i_queue _ _ _ _ _ HI it Hit) as HQ. destruct (i_ev it) as [p|k'] eqn:Ev.
    + unfold site_item in *. setoid_rewrite Ep. exact HQ.
    + destruct HQ as (e0 & H1 & H2 & H3).
      destruct (drop_cev_some A (a_cev xl) _ _ _ H1) as (e2 & He2 & Hi2).
      destruct (drop_cev_some A (a_cev xm) _ _ _ He2) as (e3 & He3 & Hi3).
      exists e3. split; [by rewrite Scevs|]. split; [congruence|]. intros Hv.
      assert (VE : valid_event A s1 k' e3). { split; [|split; [by rewrite Scevs|done]]. exists it. rewrite Squ. done. }
      apply Hvalid in VE as ((_ & He0 & _) & N1 & N2). assert (e3 = e0) as -> by congruence. specialize (H3 Hv).
      assert (Hlv : live A s (L1 ++ [l; b1; c_node e; b2; m] ++ L2) k' e0) by (rewrite EL, <- app_assoc in H3; exact H3).
      rewrite EL'. change (L1 ++ l :: u :: m :: L2) with (L1 ++ [l; u; m] ++ L2).
      eapply (live_replace A s s1 L1 l [b1; c_node e; b2; m] m [l; b1; c_node e; b2] l [u; m] m [l; u] L2 a c); auto.
      * assert (c_node e0 <> c_node e).
        { destruct H3 as (K1 & l0 & b10 & b20 & m0 & K2 & pa' & pb' & pc' & ar' & x & _ & _ & _ & _ & _ & _ & _ & _ & Har' & Hx & Hk').
          intros Heq. rewrite Heq in Har'. apply (Hnoq it Hit). rewrite Ev. f_equal. congruence. }
        assert (exists p, site A s (c_node e0) = Some p) as [p0 Hp0].
        { destruct H3 as (K1 & l0 & b10 & b20 & m0 & K2 & pa' & pb' & pc' & ar' & x & _ & _ & _ & HH & _). eauto. }
        apply site_label in Hp0. rewrite !elem_of_cons, elem_of_nil.
        intros [?|[Hx|[?|[Hx|[?|?]]]]]; try done; rewrite Hx in Hp0; congruence.
      * by rewrite Es.
      * right. by rewrite Es.
      * intros n p _. by rewrite Es.
      * intros n _. by rewrite Es.
      * intros n a0 x _ G1 G2 G3. exists x. rewrite Ea, Sarcs. done.
  - intros n a0 x k' Hn'. rewrite Ea, Sarcs. intros G1 G2 G3.
    destruct (i_cev _ _ _ _ _ HI n a0 x k' (Hsub n Hn') G1 G2 G3) as (e0 & He0 & Hne0).
    destruct (drop_cev_some A (a_cev xl) _ _ _ He0) as (e2 & He2 & Hi2).
    destruct (drop_cev_some A (a_cev xm) _ _ _ He2) as (e3 & He3 & Hi3).
    exists e3. rewrite Scevs. split; [done|]. destruct (Hold_cev k' e3) as (e4 & He4 & Hn4 & _); [by rewrite Scevs|]. congruence.
  - rewrite Sedges, Svset, !app_length. pose proof (i_count _ _ _ _ _ HI). simpl. lia.
  - rewrite Svl. apply (i_vlist _ _ _ _ _ HI).
  - rewrite Spts. apply (i_first _ _ _ _ _ HI).
  - rewrite Spts, Shs. intros p x e0 G1 G2. destruct (i_pfirst _ _ _ _ _ HI p x e0 G1 G2) as (h & G3 & G4).
    eexists. split; [by apply add_vertex_look|]. done.
  - apply (i_done _ _ _ _ _ HI).
  - rewrite Spts. apply (i_names _ _ _ _ _ HI).
Qed.

(* how the beach line and the valid circle events change: the arc between l and m
   disappears, a vertex appears at the circle's centre *)
Definition circle_trans s t s' t' (e : cevent A) : Prop :=
  exists L1 l b1 b2 m L2 u a b c ev,
    inord t = L1 ++ l :: b1 :: c_node e :: b2 :: m :: L2 /\ inord t' = L1 ++ l :: u :: m :: L2 /\ (u = b1 \/ u = b2) /\
    site A s l = Some a /\ site A s (c_node e) = Some b /\ site A s m = Some c /\ a <> b /\ b <> c /\ a <> c /\
    label A s b1 = Some (a, b) /\ label A s b2 = Some (b, c) /\ label A s' u = Some (a, c) /\
    (forall n, site A s' n = site A s n) /\ (forall n, n ∈ L1 ++ L2 -> label A s' n = label A s n) /\
    (forall k e', valid_event A s' k e' <-> (valid_event A s k e' /\ c_node e' <> l /\ c_node e' <> m) \/ (k, e') ∈ ev) /\
    (forall k e', (k, e') ∈ ev -> s_cevs s' !! k = Some e' /\ length (s_cevs s) <= k) /\
    s_queue s' ≡ₚ items A ev ++ s_queue s /\ length ev <= 2 /\
    complete_ok A s' (pred_leaf L1) (Some l) (Some m) (Some l) (Some m) (succ_leaf L2) ev /\
    (exists conn, s_verts s' = s_verts s ++ [mkVertex (Some (c_x e, c_y e)) conn]) /\
    s_vset s' = s_vset s ++ [length (s_verts s)] /\
    length (s_hedges s') = length (s_hedges s) + 2 /\ s_edges s' = s_edges s ++ [S (length (s_hedges s))] /\
    (forall e h, s_hedges s !! e = Some h -> exists h', s_hedges s' !! e = Some h' /\ h_inc h' = h_inc h) /\
    (forall e h, s_hedges s' !! e = Some h -> h_origin h = OVx (length (s_verts s)) -> h_inc h = Some a \/ h_inc h = Some b \/ h_inc h = Some c) /\
    (exists el er tl tr bu, drawn A s b1 = Some el /\ drawn A s b2 = Some er /\
       s_hedges s' = add_vertex (s_hedges s) (length (s_verts s)) el er tl tr a c bu) /\
    drawn A s' u = Some (length (s_hedges s)) /\ (forall n, n ∈ L1 ++ L2 -> drawn A s' n = drawn A s n) /\
    (exists ar, arcid A s (c_node e) = Some ar /\ s_arcset s' = List.filter (fun b => negb (b =? ar)%nat) (s_arcset s)) /\
    a_origin <$> s_arcs s' = a_origin <$> s_arcs s /\ (forall n, arcid A s' n = arcid A s n) /\
    (forall k e, s_cevs s !! k = Some e -> exists e', s_cevs s' !! k = Some e' /\ cev_item A k e' = cev_item A k e /\ c_triple e' = c_triple e /\
       (c_node e <> l -> c_node e <> m -> e' = e)).

(* the half-edges that start at the new vertex *)
Lemma add_vertex_inc P hs bs vs vset edges k0 el er tl tr a b c B1 B2 x1 x2 bu hl hr e h :
  dcel A P hs bs vs vset edges k0 ->
  bs !! B1 = Some x1 -> b_r x1 = b -> bs !! B2 = Some x2 -> b_r x2 = c ->
  hs !! el = Some hl -> h_origin hl = OBp B1 -> hs !! er = Some hr -> h_origin hr = OBp B2 ->
  add_vertex hs (length vs) el er tl tr a c bu !! e = Some h -> h_origin h = OVx (length vs) ->
  h_inc h = Some a \/ h_inc h = Some b \/ h_inc h = Some c.
Proof.
  intros HD X1 R1 X2 R2 Hl Ol Hr Or. unfold add_vertex. intros He Ho. apply lookup_app_Some in He as [He|[Hle He]].
  - rewrite list_lookup_imap in He. destruct (hs !! e) as [h0|] eqn:E0; [|done]. simpl in He. injection He as <-. simpl in Ho |- *.
    case_decide as Hd.
    + destruct Hd as [-> | ->].
      * destruct (d_open _ _ _ _ _ _ _ _ HD el hl B1 Hl Ol) as (x & _ & _ & Hx & _ & Hi & _). assert (x = x1) as -> by congruence. assert (h0 = hl) as -> by congruence. rewrite Hi, R1. auto.
      * destruct (d_open _ _ _ _ _ _ _ _ HD er hr B2 Hr Or) as (x & _ & _ & Hx & _ & Hi & _). assert (x = x2) as -> by congruence. assert (h0 = hr) as -> by congruence. rewrite Hi, R2. auto.
    + destruct (d_vert _ _ _ _ _ _ _ _ HD e h0 _ E0 Ho) as (_ & w & Hw & _). apply lookup_lt_Some in Hw. lia.
  - rewrite imap_length in He. destruct (e - length hs) as [|[|k]]; simpl in He; [|injection He as <-; simpl; auto|done]. injection He as <-. done.
Qed.

Theorem circle_event {EX : allowed} s t done k0 k e lsw :
  (forall x y z e, create_circle A x y z = Raise e -> may_raise e) ->
  (forall n x e, n ∈ inord t -> s_nodes s !! n = Some x -> node_key A s lsw x = Raise e -> may_raise e) ->
  TotalOrder A -> StrictWeakOrder (event_lt A) -> (forall p q, create_circle A p q p = Val None) ->
  Inv A s t done k0 -> s_sweep s = Some lsw -> s_cevs s !! k = Some e -> live A s (inord t) k e ->
  (forall it, it ∈ s_queue s -> i_ev it <> ECircle k) ->
  post (handle_circle_event A k s) (fun s' _ => exists t', Inv A s' t' done k0 /\ circle_trans s t s' t' e /\ frame A s s').
Proof.
  intros HCX HKX TO SWO HCC HI Hsw Hk Hlive Hnoq.
  destruct Hlive as (L1 & l & b1 & b2 & m & L2 & a & b & c & arn & xn & EL & Hl & _ & Hn & _ & Hm & _ & Hcirc & Harn & Hxn & Hkn).
  assert (Hac : a <> c).
  { intros ->. destruct Hcirc as (pa & pb & pc & HP3 & Hco). apply circle_of_create in Hco. unfold points3 in HP3.
    destruct (pxy A s c); [|done]. destruct (pxy A s b); [|done]. simpl in HP3. injection HP3 as -> -> ->. rewrite HCC in Hco. done. }
  eapply circle_run; [exact HKX|done|exact HI|exact Hsw|exact Hk|exact EL|exact Hl|exact Hn|exact Hm|exact Hac|].
  intros s1 t' u bu bo B1 B2 el er tl tr xl xm HM.
  destruct (circle_mid_inv _ _ _ _ _ _ _ _ _ _ _ _ _ _ _ _ _ _ _ _ _ _ _ _ _ _ _ _ _ _ HI HM Hl Hn Hm Hac Hcirc Harn Hxn Hkn Hnoq) as [HI1 Hval].
  destruct (circle_reads_mid _ _ _ _ _ _ _ _ _ _ _ _ _ _ _ _ _ _ _ _ _ _ _ _ _ HM) as (Ea & Eb & Es & Ep & Elab & Elu & Hub).
  pose proof (m_inord' _ _ _ _ _ _ _ _ _ _ _ _ _ _ _ _ _ _ _ _ _ _ _ _ _ HM) as EL'.
  pose proof (i_rep _ _ _ _ _ HI1) as HR1. pose proof (i_nodup _ _ _ _ _ HI1) as HN1. pose proof (i_chain _ _ _ _ _ HI1) as HC1.
  rewrite EL' in HC1.
  assert (Hl1 : site A s1 l = Some a) by (by rewrite Es). assert (Hm1 : site A s1 m = Some c) by (by rewrite Es).
  assert (Hlin : l ∈ inord t') by (rewrite EL'; clear; set_solver).
  assert (Hmin : m ∈ inord t') by (rewrite EL'; clear; set_solver).
  assert (Hlm : l <> m). { intros ->. congruence. }
  destruct (inv_site_leaf A _ _ _ _ _ _ HI1 Hlin Hl1) as (Cl & Etl & Fl & ECl).
  assert (ctx_l Cl = L1 /\ ctx_r Cl = u :: m :: L2) as [ECll EClr].
  { rewrite EL' in ECl. pose proof HN1 as HN2. rewrite EL' in HN2. apply nodup_pos in ECl as [<- <-]; done. }
  destruct (inv_site_leaf A _ _ _ _ _ _ HI1 Hmin Hm1) as (Cm & Etm & Fm & ECm).
  assert (ctx_l Cm = L1 ++ [l; u] /\ ctx_r Cm = L2) as [ECml ECmr].
  { rewrite EL' in ECm. pose proof HN1 as HN2. rewrite EL' in HN2.
    change (L1 ++ l :: u :: m :: L2) with (L1 ++ [l; u] ++ m :: L2) in ECm, HN2. rewrite app_assoc in ECm, HN2.
    apply nodup_pos in ECm as [<- <-]; done. }
  unfold circle_tail.
  eapply post_step; [apply need_val|]. eapply post_step; [apply need_val|].
  eapply post_step. { apply nodes_same. pose proof HR1 as HR2. pose proof HN1 as HN2. rewrite Etl in HR2, HN2. exact (predecessor_leaf_spec _ Cl _ HR2 HN2). }
  eapply post_step. { apply nodes_same. pose proof HR1 as HR2. pose proof HN1 as HN2. rewrite Etl in HR2, HN2. exact (successor_leaf_spec _ Cl _ HR2 HN2). }
  eapply post_step. { apply nodes_same. pose proof HR1 as HR2. pose proof HN1 as HN2. rewrite Etm in HR2, HN2. exact (predecessor_leaf_spec _ Cm _ HR2 HN2). }
  eapply post_step. { apply nodes_same. pose proof HR1 as HR2. pose proof HN1 as HN2. rewrite Etm in HR2, HN2. exact (successor_leaf_spec _ Cm _ HR2 HN2). }
  rewrite !pred_ctx, !succ_ctx by done. rewrite ECll, EClr, ECml, ECmr.
  replace (pred_leaf (L1 ++ [l; u])) with (Some l) by (unfold pred_leaf; by rewrite rev_app_distr).
  change (succ_leaf (u :: m :: L2)) with (Some m).
  assert (Hgl : good_leaf A s1 (Some l)) by (eapply good_leaf_inv; eauto).
  assert (Hgm : good_leaf A s1 (Some m)) by (eapply good_leaf_inv; eauto).
  assert (HC4 : chain (site A s1) (label A s1) ((L1 ++ [l; u]) ++ m :: L2)) by (rewrite <- app_assoc; exact HC1).
  assert (Hgp : good_leaf A s1 (pred_leaf L1)).
  { destruct (pred_leaf L1) as [n0|] eqn:Hp; [|done]. destruct (pred_leaf_site A s1 _ _ _ _ _ HC1 Hl1 Hp) as [q Hq].
    eapply good_leaf_inv; [exact HI1| |exact Hq]. destruct (pred_leaf_split _ _ Hp) as (K & b0 & EK). rewrite EL', EK. clear; set_solver. }
  assert (Hgs : good_leaf A s1 (succ_leaf L2)).
  { destruct (succ_leaf L2) as [n0|] eqn:Hp; [|done]. destruct (succ_leaf_site A s1 _ _ _ _ _ HC4 Hm1 Hp) as [q Hq].
    eapply good_leaf_inv; [exact HI1| |exact Hq]. destruct (succ_leaf_split _ _ Hp) as (K & b0 & EK). rewrite EL', EK. clear; set_solver. }
  assert (Halm : arcid A s1 l <> arcid A s1 m).
  { intros Heq. apply site_inv in Hl1 as (? & al & ? & _ & _ & Hal & _). apply Hlm. eapply (i_arcs _ _ _ _ _ HI1); [exact Hlin|exact Hmin|exact Hal|congruence]. }
  eapply post_weaken; [apply (check_circles_spec A s1 (pred_leaf L1) l (Some m) (Some l) m (succ_leaf L2) HCX SWO Hgp Hgl Hgm Hgl Hgm Hgs Hlm Halm)|].
  intros s2 [] (ext & arcs' & q' & lg & ev & Es2 & Hlg & HP & HA & HCo & Hq' & Hh).
  assert (HR12 : same_reads A s1 s2).
  { eapply check_reads; [exact Es2|]. destruct HA as (AO & _). rewrite Es2 in AO. exact AO. }
  assert (HI2 : Inv A s2 t' done k0).
  { eapply inv_check; [exact HI1|exact Es2|exact HP|exact HA|exact Hq'|apply Hh; apply (i_heap _ _ _ _ _ HI1)|exact Hlin|exact Hmin| | |].
    - intros x y Hx [= <-]. destruct (pred_leaf_split _ _ Hx) as (K & b0 & EK).
      exists K, b0, u, L2. by rewrite EL', EK.
    - intros x y [= <-] Hy. destruct (succ_leaf_split _ _ Hy) as (K & b0 & EK).
      exists L1, u, b0, K. rewrite EL', EK, <- !app_assoc. done.
    - intros k' e' Hv. apply Hval in Hv. tauto. }
  exists t'. split; [exact HI2|].
  assert (HCt : label A s b1 = Some (a, b) /\ label A s b2 = Some (b, c) /\ a <> b /\ b <> c).
  { pose proof (i_chain _ _ _ _ _ HI) as HC. rewrite EL, <- app_assoc in HC. simpl in HC.
    apply (chain_triple _ _ (site_label A s) L1 l b1 (c_node e) b2 m L2 a b c) in HC; tauto. }
  destruct HCt as (HL1 & HL2 & Hab & Hbc).
  assert (Hcv : s_cevs s2 = s_cevs s1 ++ ext) by (by rewrite Es2).
  assert (Hqv : s_queue s2 = q') by (by rewrite Es2).
  assert (Hst : s_verts s2 = s_verts s1 /\ s_vset s2 = s_vset s1 /\ s_hedges s2 = s_hedges s1 /\ s_edges s2 = s_edges s1 /\ s_points s2 = s_points s1 /\
    s_log s2 = s_log s1 ++ lg /\ s_sweep s2 = s_sweep s1 /\ s_sites s2 = s_sites s1 /\ s_event s2 = s_event s1 /\ s_pverts s2 = s_pverts s1) by (rewrite Es2; done).
  destruct Hst as (St1 & St2 & St3 & St4 & St5 & St6 & St7 & St8 & St9 & St10).
  assert (Hlc : length (s_cevs s1) = length (s_cevs s)).
  { rewrite (m_cevs _ _ _ _ _ _ _ _ _ _ _ _ _ _ _ _ _ _ _ _ _ _ _ _ _ HM). unfold drop_cev.
    destruct (a_cev xl), (a_cev xm); rewrite ?alter_length; done. }
  split.
  - exists L1, l, b1, b2, m, L2, u, a, b, c, ev.
    pose proof (i_nodup _ _ _ _ _ HI) as HN0.
    assert (Huu : u = b1 \/ u = b2) by (destruct (m_u _ _ _ _ _ _ _ _ _ _ _ _ _ _ _ _ _ _ _ _ _ _ _ _ _ HM) as [(-> & _)|(-> & _)]; auto).
    assert (Hother : forall n, n ∈ L1 ++ L2 -> bpid A s n <> Some bu).
    { intros n Hn' Hb. assert (n = u) as ->.
      { eapply (i_bps _ _ _ _ _ HI1); [rewrite EL'; clear - Hn'; set_solver| |rewrite Eb; exact Hb|rewrite Eb; exact Hub]. rewrite EL'; clear; set_solver. }
      rewrite EL' in HN1. clear - HN1 Hn'. apply NoDup_app in HN1 as (_ & H1 & H2). rewrite !NoDup_cons in H2. set_solver. }
    destruct HR12 as (Ra & Rb & Rs & Rl & Rp).
    split; [by rewrite EL, <- app_assoc|]. split; [done|]. split; [done|]. do 3 (split; [done|]). do 3 (split; [done|]).
    split; [done|]. split; [done|]. split; [by rewrite Rl|].
    split; [intros n; by rewrite Rs, Es|]. split; [intros n Hn'; rewrite Rl; apply Elab; by apply Hother|].
    destruct HP as (HPl & _ & _ & HP).
    split.
    { intros k' e'. rewrite <- Hval. unfold valid_event. rewrite Hqv. split.
      - intros ((it & Hit & Hk') & He & Hv). rewrite Hq' in Hit. apply elem_of_app in Hit as [Hit|Hit].
        + right. unfold items in Hit. apply elem_of_list_In, in_map_iff in Hit as ([k2 e2] & <- & Hin). apply elem_of_list_In in Hin.
          simpl in Hk'. injection Hk' as ->. destruct (HP k' e2 Hin) as (HH & _). assert (e2 = e') as -> by congruence. done.
        + left. split; [eauto|]. split; [|done]. pose proof (i_queue _ _ _ _ _ HI1 it Hit) as HQ. rewrite Hk' in HQ.
          destruct HQ as (e2 & H1 & _). rewrite Hcv in He. rewrite lookup_app_l in He by (eapply lookup_lt_Some; eauto). done.
      - intros [((it & Hit & Hk') & He & Hv)|Hin].
        + split. { exists it. split; [|done]. rewrite Hq'. apply elem_of_app. by right. }
          split; [|done]. rewrite Hcv. by apply look_l.
        + destruct (HP k' e' Hin) as (H1 & _ & H3 & _). split; [|done]. exists (cev_item A k' e'). split; [|done].
          rewrite Hq'. apply elem_of_app. left. unfold items. apply elem_of_list_In, in_map_iff. exists (k', e'). split; [done|]. by apply elem_of_list_In. }
    split. { intros k' e' Hin. destruct (HP k' e' Hin) as (H1 & H2 & _). rewrite Hlc in H2. done. }
    split. { rewrite Hqv, Hq'. by rewrite (m_queue _ _ _ _ _ _ _ _ _ _ _ _ _ _ _ _ _ _ _ _ _ _ _ _ _ HM). }
    split; [done|].
    split. { eapply complete_reads; [|exact HCo]. split; [done|]. split; [done|]. split; [done|]. done. }
    assert (Sb : s_bps s2 = s_bps s1) by (by rewrite Es2).
    assert (He1 : drawn A s b1 = Some el). { unfold drawn. destruct HM. rewrite m_b3. simpl. destruct m_e3 as (x & -> & X & _). exact X. }
    assert (He2 : drawn A s b2 = Some er). { unfold drawn. destruct HM. rewrite m_b4. simpl. destruct m_e4 as (x & -> & X & _). exact X. }
    assert (He3 : drawn A s2 u = Some (length (s_hedges s))).
    { unfold drawn. rewrite Rb, Eb, Hub. simpl. rewrite Sb. destruct HM. rewrite m_bps0, list_lookup_insert; [done|].
      destruct m_u0 as [(_ & -> & _)|(_ & -> & _)]; [destruct m_e3 as (x & X & _)|destruct m_e4 as (x & X & _)]; by eapply lookup_lt_Some. }
    assert (He4 : forall n, n ∈ L1 ++ L2 -> drawn A s2 n = drawn A s n).
    { intros n Hn'. pose proof (Hother n Hn') as Hne. unfold drawn. rewrite Rb, Eb, Sb. destruct (bpid A s n) as [b0|]; [|done]. simpl.
      rewrite (m_bps _ _ _ _ _ _ _ _ _ _ _ _ _ _ _ _ _ _ _ _ _ _ _ _ _ HM), list_lookup_insert_ne; [done|congruence]. }
    assert (He5 : s_arcset s2 = s_arcset s1) by (by rewrite Es2).
    assert (He6 : a_origin <$> s_arcs s2 = a_origin <$> s_arcs s). { destruct HA as (AO & _). rewrite AO. by rewrite (m_arcs _ _ _ _ _ _ _ _ _ _ _ _ _ _ _ _ _ _ _ _ _ _ _ _ _ HM). }
    assert (He7 : forall n, arcid A s2 n = arcid A s n) by (intros n; by rewrite Ra, Ea).
    assert (He8 : forall k e, s_cevs s !! k = Some e -> exists e', s_cevs s2 !! k = Some e' /\ cev_item A k e' = cev_item A k e /\ c_triple e' = c_triple e /\ (c_node e <> l -> c_node e <> m -> e' = e)).
    { intros k' e' He'. destruct (drop_cev_some A (a_cev xl) _ _ _ He') as (e1 & X1 & X2). destruct (drop_cev_some A (a_cev xm) _ _ _ X1) as (e2 & X3 & X4).
      assert (X5 : c_triple e2 = c_triple e').
      { destruct (drop_cev_look A _ _ _ _ X3) as (y1 & Y1 & _ & _ & _ & _ & _ & Y2). destruct (drop_cev_look A _ _ _ _ X1) as (y2 & Z1 & _ & _ & _ & _ & _ & Z2). congruence. }
      assert (X6 : c_node e' <> l -> c_node e' <> m -> e2 = e').
      { intros N1 N2. destruct HM as [_ _ _ _ _ _ _ _ _ _ _ _ _ _ _ _ _ _ _ _ (al & Hal & Hxl) (am & Ham & Hxm)].
        assert (a_cev xl <> Some k'). { intros Hc. destruct (i_cev _ _ _ _ _ HI l al xl k') as (e0 & H1 & H2); auto; [rewrite EL; clear; set_solver|]. congruence. }
        assert (a_cev xm <> Some k'). { intros Hc. destruct (i_cev _ _ _ _ _ HI m am xm k') as (e0 & H1 & H2); auto; [rewrite EL; clear; set_solver|]. congruence. }
        clear -X1 X3 He' H H0. revert X1 X3 H H0. unfold drop_cev. destruct (a_cev xl), (a_cev xm); intros X1 X3 H H0; rewrite ?list_lookup_alter_ne in X3 by congruence; rewrite ?list_lookup_alter_ne in X1 by congruence; congruence. }
      exists e2. split; [|split; [congruence|split; [congruence|done]]]. rewrite Hcv. apply look_l. by rewrite (m_cevs _ _ _ _ _ _ _ _ _ _ _ _ _ _ _ _ _ _ _ _ _ _ _ _ _ HM). }
    rewrite St1, St2, St3, St4, He5. destruct HM. destruct m_verts0 as (conn & _ & ->). split; [eauto|]. split; [done|].
    split; [rewrite m_hedges0; unfold add_vertex; rewrite app_length, imap_length; done|]. split; [done|]. rewrite m_hedges0. split.
    { intros e0 h0 H0. eexists. split; [by apply add_vertex_look|done]. }
    destruct m_e3 as (x1 & X1 & _ & _ & X2), m_e4 as (x2 & X3 & _ & _ & X4), m_el0 as (hl & Y1 & _ & Y2), m_er0 as (hr & Y3 & _ & Y4).
    split; [|split; [eauto 10|auto 12]].
    intros e0 h0 H1 H2. eapply add_vertex_inc; [exact (i_dcel _ _ _ _ _ HI)|exact X1|exact X2|exact X3|exact X4|exact Y1|exact Y2|exact Y3|exact Y4|exact H1|exact H2].
  - destruct HM. destruct m_frame0 as (F1 & F2 & F3 & F4). destruct m_log0 as (lg1 & F7 & F8).
    unfold frame. rewrite St5, St6, St7, St8, St9, St10, m_points0. do 6 (split; [done|]).
    exists (lg1 ++ lg). rewrite F7, app_assoc. split; [done|]. apply Forall_app. split; [done|].
    unfold dbg in *. by rewrite F1 in Hlg.
Qed.
End Circle.
