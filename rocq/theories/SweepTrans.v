(* SweepTrans.v -- how the parts of the sweep invariant survive changes of the state. *)
From stdpp Require Import base list sets.
From Coq Require Import ZArith Lia.
From Verif Require Import Arith Geom Monad Tree Heapq State Sweep HeapqProofs TreeProofs TreeOps TreeSearch Beach SweepBase Dcel SweepInv.
Local Open Scope monad_scope.

Lemma split_cases {X} (P Q R S : list X) n : P ++ Q = R ++ n :: S -> (exists Z, P = R ++ n :: Z /\ S = Z ++ Q) \/ (exists Z, R = P ++ Z /\ Q = Z ++ n :: S).
Proof.
  intros E. symmetry in E. apply app_eq_app in E as (Z & [[-> E]|[-> E]]).
  - right. exists Z. eauto.
  - destruct Z as [|z Z].
    + right. exists []. simpl in *. by rewrite !app_nil_r.
    + injection E as -> ->. left. exists Z. eauto.
Qed.

Section Trans.
Context (A : Arith).
Notation St := (state A).
Implicit Types s : St.

(* ---------- readings only look at the data of nodes ---------- *)
Definition dat s : list ndata := map n_data (s_nodes s).
Lemma arcid_dat s n : arcid A s n = dat s !! n ≫= (fun d => match d with DArc a => Some a | DBp _ => None end).
Proof. unfold arcid, dat. change (map n_data (s_nodes s)) with (n_data <$> s_nodes s). rewrite list_lookup_fmap. by destruct (s_nodes s !! n). Qed.
Lemma bpid_dat s n : bpid A s n = dat s !! n ≫= (fun d => match d with DBp a => Some a | DArc _ => None end).
Proof. unfold bpid, dat. change (map n_data (s_nodes s)) with (n_data <$> s_nodes s). rewrite list_lookup_fmap. by destruct (s_nodes s !! n). Qed.

(* a valid event away from the changed part of the beach line stays live *)
Lemma live_replace s s1 L1 ho o zo o' hn w zn w' L2 a c k e :
  ho :: o = o' ++ [zo] -> hn :: w = w' ++ [zn] ->
  live A s (L1 ++ (ho :: o) ++ L2) k e -> c_node e ∉ ho :: o ->
  site A s ho = Some a -> site A s zo = Some c ->
  site A s1 hn = Some a -> (L2 = [] \/ site A s1 zn = Some c) ->
  (forall n p, n ∈ L1 ++ L2 -> site A s n = Some p -> site A s1 n = Some p) ->
  (forall n, n ∈ L1 ++ L2 -> site A s n = None -> site A s1 n = None) ->
  (forall p, pxy A s1 p = pxy A s p) ->
  (forall n a x, n ∈ L1 ++ L2 -> arcid A s n = Some a -> s_arcs s !! a = Some x -> a_cev x = Some k ->
     exists x', arcid A s1 n = Some a /\ s_arcs s1 !! a = Some x' /\ a_cev x' = Some k) ->
  live A s1 (L1 ++ (hn :: w) ++ L2) k e.
Proof.
  intros Eo En (K1 & l & b1 & b2 & m & K2 & pa & pb & pc & ar & x & EL & Hl & Hb1 & Hn & Hb2 & Hm & Ht & Hc & Har & Hx & Hk)
    Hnin Hho Hzo Hhn Hzn Hs Hs0 Hp Ha.
  assert (Hc1 : is_circle_of A s1 (pa, pb, pc) e).
  { destruct Hc as (xa & xb & xc & HP & HC). exists xa, xb, xc. split; [|done]. unfold points3 in *. by rewrite !Hp. }
  assert (Hin : c_node e ∈ L1 ++ (ho :: o) ++ L2) by (rewrite EL; clear; set_solver).
  apply split_cases in EL as [(Z & E1 & E2)|(Z & E1 & E2)].
  - (* left of the change *)
    destruct Z as [|z Z]; simpl in E2.
    { injection E2 as -> _. congruence. }
    injection E2 as <- E2. destruct Z as [|z Z]; simpl in E2.
    + injection E2 as -> E2.
      destruct (Ha (c_node e) ar x) as (x' & A1 & A2 & A3); auto. { rewrite E1. clear; set_solver. }
      exists K1, l, b1, b2, hn, (w ++ L2), pa, pb, pc, ar, x'.
      split. { rewrite E1. rewrite <- !app_assoc. done. }
      split; [apply Hs; [rewrite E1; clear; set_solver|done]|].
      split; [apply Hs0; [rewrite E1; clear; set_solver|done]|].
      split; [apply Hs; [rewrite E1; clear; set_solver|done]|].
      split; [apply Hs0; [rewrite E1; clear; set_solver|done]|].
      split; [congruence|]. auto 10.
    + injection E2 as <- E2.
      destruct (Ha (c_node e) ar x) as (x' & A1 & A2 & A3); auto. { rewrite E1. clear; set_solver. }
      exists K1, l, b1, b2, m, (Z ++ (hn :: w) ++ L2), pa, pb, pc, ar, x'.
      split. { rewrite E1. rewrite <- !app_assoc. done. }
      split; [apply Hs; [rewrite E1; clear; set_solver|done]|].
      split; [apply Hs0; [rewrite E1; clear; set_solver|done]|].
      split; [apply Hs; [rewrite E1; clear; set_solver|done]|].
      split; [apply Hs0; [rewrite E1; clear; set_solver|done]|].
      split; [apply Hs; [rewrite E1; clear; set_solver|done]|]. auto 10.
  - apply split_cases in E2 as [(Z2 & E2 & E3)|(Z2 & E2 & E3)].
    { destruct Hnin. rewrite E2. clear; set_solver. }
    subst Z. rewrite Eo in E1.
    assert (Hn2 : site A s1 zn = Some c). { destruct Hzn as [->|]; [|done]. by destruct Z2. }
    destruct Z2 as [|z Z2 _] using rev_ind.
    + (* b1 is the last of the old part *)
      rewrite app_nil_r in E1. rewrite app_assoc in E1. change [l; b1] with ([l] ++ [b1]) in E1. rewrite app_assoc in E1.
      apply app_inj_tail in E1 as [_ ->]. congruence.
    + destruct Z2 as [|z' Z2 _] using rev_ind.
      * simpl in E1, E3. change [l; b1] with ([l] ++ [b1]) in E1. rewrite !app_assoc in E1.
        apply app_inj_tail in E1 as [E1 <-]. apply app_inj_tail in E1 as [-> ->].
        destruct (Ha (c_node e) ar x) as (x' & A1 & A2 & A3); auto. { rewrite E3. clear; set_solver. }
        exists (L1 ++ w'), zn, b1, b2, m, K2, pa, pb, pc, ar, x'.
        split. { rewrite E3, En. rewrite <- !app_assoc. done. }
        split; [congruence|].
        split; [apply Hs0; [rewrite E3; clear; set_solver|done]|].
        split; [apply Hs; [rewrite E3; clear; set_solver|done]|].
        split; [apply Hs0; [rewrite E3; clear; set_solver|done]|].
        split; [apply Hs; [rewrite E3; clear; set_solver|done]|]. auto 10.
      * change [l; b1] with ([l] ++ [b1]) in E1. rewrite !app_assoc in E1.
        apply app_inj_tail in E1 as [E1 <-]. apply app_inj_tail in E1 as [-> <-].
        destruct (Ha (c_node e) ar x) as (x' & A1 & A2 & A3); auto. { rewrite E3. clear; set_solver. }
        exists (L1 ++ (hn :: w) ++ Z2), l, b1, b2, m, K2, pa, pb, pc, ar, x'.
        split. { rewrite E3. rewrite <- !app_assoc. simpl. rewrite ?app_comm_cons, <- ?app_assoc. done. }
        split; [apply Hs; [rewrite E3; clear; set_solver|done]|].
        split; [apply Hs0; [rewrite E3; clear; set_solver|done]|].
        split; [apply Hs; [rewrite E3; clear; set_solver|done]|].
        split; [apply Hs0; [rewrite E3; clear; set_solver|done]|].
        split; [apply Hs; [rewrite E3; clear; set_solver|done]|]. auto 10.
Qed.

(* the shape of the tree does not matter *)
Lemma inv_tree s t done k0 h' t' : Inv A s t done k0 -> rep h' None t' -> inord t' = inord t -> full t' ->
  same_data (s_nodes s) h' -> Hok h' -> Inv A (set_root (rootid t') (set_nodes h' s)) t' done k0.
Proof.
  intros H R EI F D O. set (s' := set_root _ _).
  assert (Hd : dat s' = dat s) by exact D.
  assert (Ea : forall n, arcid A s' n = arcid A s n) by (intros n; by rewrite !arcid_dat, Hd).
  assert (Eb : forall n, bpid A s' n = bpid A s n) by (intros n; by rewrite !bpid_dat, Hd).
  assert (Es : forall n, site A s' n = site A s n) by (intros n; unfold site; by rewrite Ea).
  assert (El : forall n, label A s' n = label A s n) by (intros n; unfold label; by rewrite Eb).
  destruct H. constructor; rewrite ?EI; auto.
  - eapply chain_mono; [| |eassumption]; intros; rewrite ?Es, ?El; auto.
  - intros n m a. rewrite !Ea. eauto.
  - intros n m a. rewrite !Eb. eauto.
  - rewrite (sites_ext (site A s)); auto.
  - rewrite (sites_ext (site A s)); auto.
  - intros n b. rewrite Eb. apply i_open.
  - intros i Hi. specialize (i_queue i Hi). destruct (i_ev i) as [p|k]; [exact i_queue|].
    destruct i_queue as (e & H1 & H2 & H3). exists e. split; [done|]. split; [done|]. intros Hv. specialize (H3 Hv).
    destruct H3 as (K1 & l & b1 & b2 & m & K2 & pa & pb & pc & ar & x & HH). 
    exists K1, l, b1, b2, m, K2, pa, pb, pc, ar, x. rewrite !Es, Ea. exact HH.
  - intros n a x k. rewrite Ea. apply i_cev.
Qed.

Lemma chain_gap s L1 b n L2 p : chain (site A s) (label A s) (L1 ++ b :: n :: L2) -> site A s n = Some p -> site A s b = None.
Proof.
  intros H Hn. destruct (site A s b) as [q|] eqn:Hb; [|done]. exfalso.
  pose proof (chain_even _ _ (site_label A s) _ b L1 (n :: L2) q H eq_refl Hb) as [x Hx].
  pose proof (chain_even _ _ (site_label A s) _ n (L1 ++ [b]) L2 p H) as HE. rewrite <- app_assoc in HE.
  destruct (HE eq_refl Hn) as [y Hy]. rewrite app_length in Hy. simpl in Hy. lia.
Qed.
Lemma chain_gap' s L1 n b L2 p : chain (site A s) (label A s) (L1 ++ n :: b :: L2) -> site A s n = Some p -> site A s b = None.
Proof.
  intros H Hn. destruct (site A s b) as [q|] eqn:Hb; [|done]. rewrite (chain_gap s L1 n b L2 q H Hb) in Hn. done.
Qed.

Definition valid_event s (k : nat) (e : cevent A) : Prop :=
  (exists i, i ∈ s_queue s /\ i_ev i = ECircle k) /\ s_cevs s !! k = Some e /\ c_valid e = true.

Lemma live_ext s s1 L k e :
  live A s L k e ->
  (forall n, n ∈ L -> site A s1 n = site A s n) ->
  (forall p, pxy A s1 p = pxy A s p) ->
  (forall n a x, n = c_node e -> arcid A s n = Some a -> s_arcs s !! a = Some x -> a_cev x = Some k ->
     exists x', arcid A s1 n = Some a /\ s_arcs s1 !! a = Some x' /\ a_cev x' = Some k) ->
  live A s1 L k e.
Proof.
  intros (K1 & l & b1 & b2 & m & K2 & pa & pb & pc & ar & x & EL & Hl & Hb1 & Hn & Hb2 & Hm & Ht & Hc & Har & Hx & Hk) Hs Hp Ha.
  destruct (Ha (c_node e) ar x) as (x' & A1 & A2 & A3); auto.
  assert (forall n, n ∈ l :: b1 :: c_node e :: b2 :: [m] -> site A s1 n = site A s n) as Hs'.
  { intros n Hn'. apply Hs. rewrite EL. clear - Hn'. set_solver. }
  exists K1, l, b1, b2, m, K2, pa, pb, pc, ar, x'. split; [done|].
  rewrite !Hs' by (clear; set_solver). do 5 (split; [done|]). split; [done|]. split; [|done].
  destruct Hc as (xa & xb & xc & HP & HC). exists xa, xb, xc. split; [|done]. unfold points3 in *. by rewrite !Hp.
Qed.

(* _check_circles keeps the invariant *)
Lemma inv_check s t done k0 s' na ib nc nd ie nf ext arcs' q' lg l :
  Inv A s t done k0 ->
  s' = set_log (s_log s ++ lg) (set_arcs arcs' (set_queue q' (set_cevs (s_cevs s ++ ext) s))) ->
  pushed_ok A s s' na (Some ib) nc nd (Some ie) nf l -> arcs_ok A s s' l ->
  q' ≡ₚ items A l ++ s_queue s -> is_heap (event_lt A) q' ->
  ib ∈ inord t -> ie ∈ inord t ->
  (forall a c, na = Some a -> nc = Some c -> exists L1 b1 b2 L2, inord t = (L1 ++ [a; b1]) ++ ib :: b2 :: c :: L2) ->
  (forall a c, nd = Some a -> nf = Some c -> exists L1 b1 b2 L2, inord t = (L1 ++ [a; b1]) ++ ie :: b2 :: c :: L2) ->
  (forall k e, valid_event s k e -> c_node e <> ib /\ c_node e <> ie) ->
  Inv A s' t done k0.
Proof.
  intros H Es' (_ & PN & PN2 & HP) (AO & AP & AU) Hq Hh Hib Hie Hleft Hright Hvalid.
  assert (Sarcs : s_arcs s' = arcs') by (by subst s').
  assert (Scevs : s_cevs s' = s_cevs s ++ ext) by (by subst s').
  assert (Squeue : s_queue s' = q') by (by subst s').
  assert (Ea : forall n, arcid A s' n = arcid A s n) by (by subst s').
  assert (Eb : forall n, bpid A s' n = bpid A s n) by (by subst s').
  assert (Ep : forall n, pxy A s' n = pxy A s n) by (by subst s').
  assert (El : forall n, label A s' n = label A s n) by (by subst s').
  assert (Es : forall n, site A s' n = site A s n).
  { intros n. unfold site. rewrite Ea. destruct (arcid A s n) as [a|]; [|done]. simpl.
    rewrite <- !list_lookup_fmap. by rewrite AO. }
  assert (Hlive : forall k e, valid_event s k e -> live A s (inord t) k e).
  { intros k e ((i & Hi & Hik) & He & Hv). pose proof (i_queue _ _ _ _ _ H i Hi) as HQ. rewrite Hik in HQ.
    destruct HQ as (e' & He' & _ & HL). assert (e' = e) as -> by congruence. auto. }
  assert (Hdec : forall a, (exists k e, (k, e) ∈ l /\ arcid A s (c_node e) = Some a) \/ s_arcs s' !! a = s_arcs s !! a).
  { intros a. destruct (decide (Exists (fun p => arcid A s (c_node (snd p)) = Some a) l)) as [HE|HE].
    - left. apply Exists_exists in HE as ([k e] & H1 & H2). eauto.
    - right. apply AU. intros k e Hin Hke. apply HE. apply Exists_exists. exists (k, e). eauto. }
  assert (Hnode : forall k e, (k, e) ∈ l -> c_node e = ib \/ c_node e = ie).
  { intros k e Hin. destruct (HP k e Hin) as (_ & _ & _ & _ & [[? _]|[? _]]); [left|right]; congruence. }
  assert (Fl : forall k e, (k, e) ∈ l -> live A s' (inord t) k e).
  { intros k e Hin. destruct (HP k e Hin) as (H1 & H2 & H3 & H4 & H5).
    assert (exists a c L1 b1 b2 L2 pa pb pc, inord t = (L1 ++ [a; b1]) ++ c_node e :: b2 :: c :: L2 /\
       site A s a = Some pa /\ site A s (c_node e) = Some pb /\ site A s c = Some pc /\ c_triple e = (pa, pb, pc)) as
       (a & c & L1 & b1 & b2 & L2 & pa & pb & pc & EL & S1 & S2 & S3 & ET).
    { assert (forall a c pa pb pc, site A s a = Some pa -> site A s (c_node e) = Some pb -> site A s c = Some pc ->
         Some (pa, pb, pc) = Some (c_triple e) ->
         (exists L1 b1 b2 L2, inord t = (L1 ++ [a; b1]) ++ c_node e :: b2 :: c :: L2) ->
         exists a c L1 b1 b2 L2 pa pb pc, inord t = (L1 ++ [a; b1]) ++ c_node e :: b2 :: c :: L2 /\
           site A s a = Some pa /\ site A s (c_node e) = Some pb /\ site A s c = Some pc /\ c_triple e = (pa, pb, pc)) as Hgo.
      { intros a c pa pb pc S1 S2 S3 ET (L1 & b1 & b2 & L2 & EL). exists a, c, L1, b1, b2, L2, pa, pb, pc.
        split; [done|]. split; [done|]. split; [done|]. split; [done|]. congruence. }
      destruct H5 as [[[= Hb] HT]|[[= Hb] HT]]; unfold triple_of in HT; simpl in HT; rewrite Hb in HT.
      - destruct na as [a|]; [|done]. simpl in HT. destruct nc as [c|]; [|done]. simpl in HT.
        destruct (site A s a) as [pa|] eqn:S1; [|done]. destruct (site A s (c_node e)) as [pb|] eqn:S2; [|done].
        destruct (site A s c) as [pc|] eqn:S3; [|done]. simpl in HT. apply (Hgo a c pa pb pc); [done|done|done|done|]. rewrite <- Hb. auto.
      - destruct nd as [a|]; [|done]. simpl in HT. destruct nf as [c|]; [|done]. simpl in HT.
        destruct (site A s a) as [pa|] eqn:S1; [|done]. destruct (site A s (c_node e)) as [pb|] eqn:S2; [|done].
        destruct (site A s c) as [pc|] eqn:S3; [|done]. simpl in HT. apply (Hgo a c pa pb pc); [done|done|done|done|]. rewrite <- Hb. auto. }
    destruct (AP k e Hin) as (ar & x & A1 & A2 & A3).
    pose proof (i_chain _ _ _ _ _ H) as HC. rewrite EL in HC.
    exists L1, a, b1, b2, c, L2, pa, pb, pc, ar, x. rewrite !Es, Ea. split; [done|]. split; [done|].
    split. { eapply (chain_gap s (L1 ++ [a])); [|exact S2]. rewrite <- !app_assoc in *. exact HC. }
    split; [done|]. split. { eapply chain_gap'; [|exact S2]. exact HC. }
    split; [done|]. split; [done|]. split; [|done].
    rewrite <- ET. destruct H4 as (xa & xb & xc & G1 & G2). exists xa, xb, xc. split; [|done].
    rewrite ET in *. unfold points3 in *. by rewrite !Ep. }
  pose proof H as HI. destruct H. constructor; try (subst s'; assumption).
  - eapply chain_mono; [| |eassumption]; intros; rewrite ?Es, ?El; auto.
  - rewrite (sites_ext (site A s)); auto.
  - rewrite (sites_ext (site A s)); auto.
  - rewrite Squeue, Hq, fmap_app. apply NoDup_app.
    assert (i_ev <$> items A l = ECircle <$> (fst <$> l)) as ->.
    { unfold items. change (map ?f ?l) with (f <$> l). rewrite <- !list_fmap_compose. done. }
    split. { apply NoDup_fmap_2; [|done]. intros x y [= ->]. done. }
    split; [|done]. intros ev He He'. apply elem_of_list_fmap in He as (k & -> & Hk). apply elem_of_list_fmap in Hk as ([k' e] & -> & Hin).
    simpl in He'. apply elem_of_list_fmap in He' as (i & Hi & Hin'). pose proof (i_queue i Hin') as HQ. rewrite <- Hi in HQ.
    destruct HQ as (e' & He' & _). apply lookup_lt_Some in He'. destruct (HP k' e Hin) as (_ & ? & _). lia.
  - intros i. rewrite Squeue, Hq. intros [Hi|Hi]%elem_of_app.
    + unfold items in Hi. apply elem_of_list_In, in_map_iff in Hi as ([k e] & <- & Hin). apply elem_of_list_In in Hin.
      simpl. exists e. destruct (HP k e Hin) as (H1 & _). split; [done|]. split; [done|]. intros _. by apply Fl.
    + pose proof (i_queue i Hi) as HQ. destruct (i_ev i) as [p|k] eqn:Ev.
      * destruct HQ as (H1 & H2 & H3). split; [done|]. unfold site_item. rewrite Ep. split; [done|].
        intros q j Hq'. rewrite Ep. apply H3. done.
      * destruct HQ as (e & H1 & H2 & H3). exists e. split; [rewrite Scevs; by apply look_l|]. split; [done|].
        intros Hv. assert (VE : valid_event s k e) by (split; [eauto|done]).
        destruct (Hvalid k e VE) as [V1 V2]. pose proof (Hlive k e VE) as HL.
        eapply live_ext; [exact HL|auto|auto|].
        intros n a x -> Ha Hx Hk. exists x. rewrite Ea. split; [done|]. split; [|done]. rewrite <- Hx.
        apply AU. intros k' e' Hin Ha'.
        assert (c_node e = c_node e'); [|destruct (Hnode k' e' Hin); congruence].
        eapply i_arcs; eauto.
        -- destruct HL as (K1 & l0 & b1 & b2 & m & K2 & pa & pb & pc & ar & y & EL & _). rewrite EL. clear; set_solver.
        -- destruct (Hnode k' e' Hin) as [->| ->]; done.
  - intros n a x k Hn. rewrite Ea, Scevs. intros Han Hx Hk. destruct (Hdec a) as [(k' & e & Hin & Ha)|Ha].
    + destruct (AP k' e Hin) as (a' & x' & A1 & A2 & A3). assert (a' = a) as -> by congruence.
      assert (k' = k) as -> by congruence. destruct (HP k e Hin) as (HL & _). rewrite Scevs in HL.
      exists e. split; [done|]. eapply i_arcs; eauto. destruct (Hnode k e Hin) as [->| ->]; done.
    + rewrite Ha in Hx. destruct (i_cev n a x k Hn Han Hx Hk) as (e & H1 & H2). exists e. auto using look_l.
Qed.

(* what handling an event leaves alone, and what it adds to the notifications *)
Definition frame s s' : Prop :=
  s_sweep s' = s_sweep s /\ s_sites s' = s_sites s /\ s_event s' = s_event s /\ s_pverts s' = s_pverts s /\
  p_xy <$> s_points s' = p_xy <$> s_points s /\ p_name <$> s_points s' = p_name <$> s_points s /\
  exists lg, s_log s' = s_log s ++ lg /\ Forall (eq (dbg A s)) lg.

(* the leaf before / after a stretch of the beach line *)
Definition pred_leaf (L1 : list nat) : option nat := match rev L1 with _ :: m :: _ => Some m | _ => None end.
Definition succ_leaf (L2 : list nat) : option nat := match L2 with _ :: m :: _ => Some m | _ => None end.

(* same arcs, breakpoints and sites *)
Definition same_reads s s' : Prop :=
  (forall n, arcid A s' n = arcid A s n) /\ (forall n, bpid A s' n = bpid A s n) /\
  (forall n, site A s' n = site A s n) /\ (forall n, label A s' n = label A s n) /\ (forall p, pxy A s' p = pxy A s p).
Lemma same_reads_trans s s' s'' : same_reads s s' -> same_reads s' s'' -> same_reads s s''.
Proof.
  intros (H1 & H2 & H3 & H4 & H5) (G1 & G2 & G3 & G4 & G5).
  split; [|split; [|split; [|split]]]; intros x; [by rewrite G1|by rewrite G2|by rewrite G3|by rewrite G4|by rewrite G5].
Qed.
Lemma check_reads s s' ext arcs' q' lg :
  s' = set_log (s_log s ++ lg) (set_arcs arcs' (set_queue q' (set_cevs (s_cevs s ++ ext) s))) ->
  a_origin <$> arcs' = a_origin <$> s_arcs s -> same_reads s s'.
Proof.
  intros -> AO. split; [done|]. split; [done|]. split; [|done]. intros n. unfold site.
  change (arcid A (set_log _ _) n) with (arcid A s n). destruct (arcid A s n) as [a|]; [|done]. simpl.
  rewrite <- !list_lookup_fmap. by rewrite AO.
Qed.
Lemma tree_reads s h' o : same_data (s_nodes s) h' -> same_reads s (set_root o (set_nodes h' s)).
Proof.
  intros D. set (s' := set_root _ _). assert (Hd : dat s' = dat s) by exact D.
  assert (Ea : forall n, arcid A s' n = arcid A s n) by (intros n; by rewrite !arcid_dat, Hd).
  assert (Eb : forall n, bpid A s' n = bpid A s n) by (intros n; by rewrite !bpid_dat, Hd).
  split; [done|]. split; [done|]. split; [|split; [|done]]; intros n; unfold site, label; [by rewrite Ea|by rewrite Eb].
Qed.
Lemma points3_reads s s' t : same_reads s s' -> points3 A s' t = points3 A s t.
Proof. intros (_ & _ & _ & _ & H). destruct t as [[a b] c]. unfold points3. by rewrite !H. Qed.
Lemma circle_reads s s' t e : same_reads s s' -> is_circle_of A s t e -> is_circle_of A s' t e.
Proof. intros H. unfold is_circle_of. by setoid_rewrite (points3_reads s s' t H). Qed.
Lemma triple_reads s s' a b c : same_reads s s' -> triple_of A s' a b c = triple_of A s a b c.
Proof. intros (_ & _ & H & _). unfold triple_of. destruct a, b, c; simpl; rewrite ?H; done. Qed.
Lemma no_circle_reads s s' t : same_reads s s' -> no_circle A s t -> no_circle A s' t.
Proof. intros H. unfold no_circle. by setoid_rewrite (points3_reads s s' t H). Qed.
Lemma complete_reads s s' a b c d e f l : same_reads s s' -> complete_ok A s a b c d e f l -> complete_ok A s' a b c d e f l.
Proof.
  intros H (H1 & H2). split.
  - intros t. rewrite (triple_reads s s') by done. intros Ht. destruct (H1 t Ht) as [?|?]; [left; by eapply no_circle_reads|auto].
  - intros t. rewrite (triple_reads s s') by done. intros Ht. destruct (H2 t Ht) as [?|[?|(k & e0 & e' & G1 & G2 & G3 & G4 & G5)]]; [left; by eapply no_circle_reads|auto|].
    right. right. exists k, e0, e'. rewrite (triple_reads s s') by done. eauto 10 using circle_reads.
Qed.

Lemma good_leaf_inv s t done k0 n p : Inv A s t done k0 -> n ∈ inord t -> site A s n = Some p -> good_leaf A s (Some n).
Proof. intros H Hn Hs. destruct (inv_site A _ _ _ _ _ _ H Hn Hs) as (_ & xy & Hxy). exists p, xy. done. Qed.

(* neighbours of a leaf *)
Lemma pred_ctx C : full_ctx C -> ctx_pred C = pred_leaf (ctx_l C).
Proof.
  intros F. destruct (ctx_l_shape C F) as [[-> ->]|(L & m & b & -> & ->)]; [done|]. unfold pred_leaf. by rewrite rev_app_distr.
Qed.
Lemma succ_ctx C : full_ctx C -> ctx_succ C = succ_leaf (ctx_r C).
Proof. intros F. by destruct (ctx_r_shape C F) as [[-> ->]|(b & m & R & -> & ->)]. Qed.
Lemma pred_leaf_split L m : pred_leaf L = Some m -> exists K b, L = K ++ [m; b].
Proof.
  unfold pred_leaf. destruct L as [|b L _] using rev_ind; [done|]. destruct L as [|m' L _] using rev_ind; [done|].
  rewrite !rev_app_distr. simpl. intros [= ->]. exists L, b. by rewrite <- app_assoc.
Qed.
Lemma succ_leaf_split L m : succ_leaf L = Some m -> exists K b, L = b :: m :: K.
Proof. unfold succ_leaf. destruct L as [|b [|m' L]]; [done|done|]. intros [= ->]. eauto. Qed.

(* the leaves next to a leaf have sites *)
Lemma pred_leaf_site s L1 n L2 p m : chain (site A s) (label A s) (L1 ++ n :: L2) -> site A s n = Some p -> pred_leaf L1 = Some m ->
  exists q, site A s m = Some q.
Proof.
  intros HC Hn Hm. destruct (pred_leaf_split _ _ Hm) as (K & b & ->).
  pose proof (chain_even _ _ (site_label A s) _ n _ _ p HC eq_refl Hn) as [x Hx]. rewrite app_length in Hx. simpl in Hx.
  eapply (chain_even_site _ _ _ m K (b :: n :: L2) HC); [by rewrite <- app_assoc|]. exists (x - 1). lia.
Qed.
Lemma succ_leaf_site s L1 n L2 p m : chain (site A s) (label A s) (L1 ++ n :: L2) -> site A s n = Some p -> succ_leaf L2 = Some m ->
  exists q, site A s m = Some q.
Proof.
  intros HC Hn Hm. destruct (succ_leaf_split _ _ Hm) as (K & b & ->).
  pose proof (chain_even _ _ (site_label A s) _ n _ _ p HC eq_refl Hn) as [x Hx].
  eapply (chain_even_site _ _ _ m (L1 ++ [n; b]) K HC); [by rewrite <- app_assoc|]. rewrite app_length. simpl. exists (x + 1). lia.
Qed.
End Trans.
