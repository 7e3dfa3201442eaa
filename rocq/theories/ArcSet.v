(* ArcSet.v -- the arcs kept for drawing (`_arcs`, algorithm.py:73-74, 256, 370-371): at any
   moment of the sweep they are arcs of handled sites, and every site with an arc on the
   beach line has one among them. *)
From stdpp Require Import base list sets.
From Coq Require Import ZArith Lia.
From Verif Require Import Arith Geom Monad Tree Heapq State Sweep HeapqProofs EventOrder TreeProofs TreeOps TreeSearch Beach
  SweepBase Dcel SweepInv SweepTrans SweepSite SweepCircle SweepLoop.

Section ArcSet.
Context (A : Arith) (pts corners : list (pt A)).
Implicit Types s : state A.

Record kept s (L done : list nat) : Prop := {
  k_done : forall a x, s_arcs s !! a = Some x -> a_origin x ∈ done;
  k_lt : forall a, a ∈ s_arcset s -> a < length (s_arcs s);
  k_leaf : forall n p a, n ∈ L -> site A s n = Some p -> arcid A s n = Some a ->
    (a ∈ s_arcset s /\ forall n', n' ∈ L -> site A s n' = Some p -> n' = n) \/
    (exists a', a' ∈ s_arcset s /\ (a_origin <$> s_arcs s) !! a' = Some p /\ forall n', n' ∈ L -> arcid A s n' <> Some a')
}.

Lemma site_arcid s n p : site A s n = Some p -> exists a, arcid A s n = Some a /\ (a_origin <$> s_arcs s) !! a = Some p.
Proof. unfold site. destruct (arcid A s n) as [a|]; [|done]. intros H. exists a. split; [done|]. rewrite list_lookup_fmap. exact H. Qed.
Lemma arcid_site s n p a : arcid A s n = Some a -> (a_origin <$> s_arcs s) !! a = Some p -> site A s n = Some p.
Proof. unfold site. intros ->. by rewrite list_lookup_fmap. Qed.

(* ---------- the site event ---------- *)
Lemma kept_site s t done k0 s' t' i pi : Inv A s t done k0 -> Inv A s' t' (done ++ [i]) k0 -> i ∉ done -> site_trans A s t s' t' i pi ->
  kept s (inord t) done -> kept s' (inord t') (done ++ [i]).
Proof.
  intros HI HI' Hi (L1 & above & L2 & j & pj & mid & l & EL & Hj & _ & _ & EL' & Hfresh & Hsite & Hlabel & _ & _ & _ & _ & _ & _ & _ & _ & _ & _ & _ & _ & _ & _ & (Eset & Eor & Eid & Emid & _)) [K1 K2 K3].
  set (N := length (s_arcs s)) in *.
  assert (Ha : above ∈ inord t) by (rewrite EL; apply elem_of_app; right; left).
  destruct (inv_site A s t done k0 above j HI Ha Hj) as [Hjd _].
  assert (Hij : i <> j) by (intros ->; done).
  assert (HLN : length (a_origin <$> s_arcs s) = N) by (by rewrite fmap_length).
  assert (Hin : forall n, n ∈ L1 ++ L2 -> n ∈ inord t /\ n <> above).
  { intros n Hn. pose proof (i_nodup _ _ _ _ _ HI) as ND. rewrite EL in ND |- *. clear - Hn ND.
    apply NoDup_app in ND as (_ & N1 & N2). apply NoDup_cons in N2 as [N2 _]. rewrite elem_of_app in Hn. split; [rewrite elem_of_app, elem_of_cons; tauto|].
    intros ->. destruct Hn as [Hn|Hn]; [|done]. apply (N1 above Hn). left. }
  assert (Hlt : forall n, n ∈ inord t -> n < length (s_nodes s)).
  { intros n Hn. destruct (rep_lookup _ _ _ _ (i_rep _ _ _ _ _ HI) Hn) as [x Hx]. by eapply lookup_lt_Some. }
  assert (Hold : forall n p, n ∈ L1 ++ L2 -> site A s' n = Some p -> site A s n = Some p).
  { intros n p Hn Hp. destruct (Hin n Hn) as [Hn' _]. destruct (inv_node A s t done k0 n HI Hn') as [(q & Hq & _)|(q & r & _ & Hq & _)].
    - rewrite (Hsite n q Hn Hq) in Hp. congruence.
    - apply site_label in Hp. rewrite (Hlabel n _ Hn Hq) in Hp. done. }
  assert (Hnew : forall n p, n ∈ mid -> site A s' n = Some p -> p = j \/ (p = i /\ arcid A s' n = Some N)).
  { intros n p Hn Hp. destruct (site_arcid _ _ _ Hp) as (a & Ha1 & Ha2). pose proof (Emid n a Hn Ha1) as Hge. rewrite Eor in Ha2.
    rewrite lookup_app_r in Ha2 by (rewrite HLN; lia). rewrite HLN in Ha2.
    destruct (a - N) as [|[|[|k]]] eqn:Ek; simpl in Ha2.
    - injection Ha2 as <-. right. split; [done|]. by assert (a = N) as -> by lia.
    - injection Ha2 as <-. by left.
    - destruct (does_intersect A pi pj); [|done]. injection Ha2 as <-. by left.
    - by destruct (does_intersect A pi pj). }
  assert (Hcase : forall n, n ∈ inord t' -> n ∈ L1 ++ L2 \/ n ∈ mid).
  { intros n. rewrite EL', !elem_of_app. tauto. }
  assert (Hset : forall a, a ∈ s_arcset s' <-> a ∈ s_arcset s \/ a = N).
  { intros a. rewrite Eset. unfold set_add. case_bool_decide as Em.
    - split; [auto|]. by intros [?| ->].
    - rewrite elem_of_app, elem_of_list_singleton. tauto. }
  assert (Hpre : forall a p, (a_origin <$> s_arcs s) !! a = Some p -> (a_origin <$> s_arcs s') !! a = Some p) by (intros a p Hap; rewrite Eor; by apply lookup_app_l_Some).
  (* what happens to an arc that is kept and stands for no leaf *)
  assert (Hkeep : forall p a', a' ∈ s_arcset s -> (a_origin <$> s_arcs s) !! a' = Some p -> (forall n', n' ∈ L1 ++ L2 -> arcid A s n' <> Some a') ->
    exists a', a' ∈ s_arcset s' /\ (a_origin <$> s_arcs s') !! a' = Some p /\ forall n', n' ∈ inord t' -> arcid A s' n' <> Some a').
  { intros p a' G1 G2 G3. exists a'. split; [apply Hset; by left|]. split; [by apply Hpre|]. intros n' Hn' E.
    destruct (Hcase n' Hn') as [Hm|Hm].
    - destruct (Hin n' Hm) as [Hm' _]. rewrite (Eid n' (Hlt n' Hm')) in E. by apply (G3 n' Hm).
    - pose proof (Emid n' a' Hm E). pose proof (K2 a' G1). lia. }
  constructor.
  - intros a x Hx. assert (Hx' : (a_origin <$> s_arcs s') !! a = Some (a_origin x)) by (by rewrite list_lookup_fmap, Hx).
    rewrite Eor in Hx'. rewrite elem_of_app, elem_of_list_singleton. apply lookup_app_Some in Hx' as [Hx'|[_ Hx']].
    + rewrite list_lookup_fmap in Hx'. destruct (s_arcs s !! a) as [y|] eqn:Ey; [|done]. injection Hx' as <-. left. by eapply K1.
    + apply elem_of_list_lookup_2 in Hx'. rewrite !elem_of_cons in Hx'. destruct Hx' as [Hx'|[Hx'|Hx']]; [by right|rewrite Hx'; by left|].
      destruct (does_intersect A pi pj); [|by apply elem_of_nil in Hx']. apply elem_of_list_singleton in Hx' as ->. by left.
  - intros a. rewrite Hset. assert (HL : length (a_origin <$> s_arcs s') = length (s_arcs s')) by apply fmap_length.
    rewrite Eor, app_length, HLN in HL. simpl in HL. intros [Hx| ->]; [|lia]. pose proof (K2 a Hx). lia.
  - intros n p a Hn Hp Hna. destruct (Hcase n Hn) as [Hm|Hm].
    + destruct (Hin n Hm) as [Hn' Hne]. pose proof (Hold n p Hm Hp) as Hp'. rewrite (Eid n (Hlt n Hn')) in Hna.
      destruct (K3 n p a Hn' Hp' Hna) as [[G1 G2]|(a' & G1 & G2 & G3)].
      * left. split; [apply Hset; by left|]. intros n' Hn1 Hp1. destruct (Hcase n' Hn1) as [Hm1|Hm1].
        -- apply G2; [by apply Hin|]. by apply Hold.
        -- exfalso. destruct (Hnew n' p Hm1 Hp1) as [->|[-> _]].
           ++ apply Hne. symmetry. by apply G2.
           ++ apply Hi. by destruct (inv_site A s t done k0 n i HI Hn' Hp').
      * right. apply (Hkeep p a' G1 G2). intros n' Hn1. apply G3. by apply Hin.
    + destruct (Hnew n p Hm Hp) as [->|[-> Hna']].
      * right. destruct (site_arcid _ _ _ Hj) as (a0 & Ha0 & Ho0). destruct (K3 above j a0 Ha Hj Ha0) as [[G1 G2]|(a' & G1 & G2 & G3)].
        -- apply (Hkeep j a0 G1 Ho0). intros n' Hn1 E1. destruct (Hin n' Hn1) as [Hn2 Hne]. apply Hne.
           apply G2; [done|]. by eapply arcid_site.
        -- apply (Hkeep j a' G1 G2). intros n' Hn1. apply G3. by apply Hin.
      * left. split; [apply Hset; right; congruence|]. intros n' Hn1 Hp1. destruct (Hcase n' Hn1) as [Hm1|Hm1].
        -- exfalso. apply Hi. destruct (Hin n' Hm1) as [Hn2 _]. by destruct (inv_site A s t done k0 n' i HI Hn2 (Hold n' i Hm1 Hp1)).
        -- destruct (Hnew n' i Hm1 Hp1) as [?|[_ Hq]]; [done|]. by apply (i_arcs _ _ _ _ _ HI' n' n N).
Qed.

(* ---------- the circle event ---------- *)
Lemma kept_circle s t done k0 s' t' e : Inv A s t done k0 -> circle_trans A s t s' t' e -> kept s (inord t) done -> kept s' (inord t') done.
Proof.
  intros HI (L1 & l & b1 & b2 & m & L2 & u & a & b & c & ev & EL & EL' & Hu & Ha & Hb & Hc & _ & _ & _ & _ & _ & _ & Hsite & _ & _ & _ & _ & _ & _ & _ & _ & _ & _ & _ & _ & _ & _ & _ & (ar & Har & Eset) & Eor & Eid & _) [K1 K2 K3].
  assert (Hin : forall n, n ∈ inord t' -> n ∈ inord t /\ n <> c_node e).
  { intros n Hn. pose proof (i_nodup _ _ _ _ _ HI) as ND. rewrite EL in ND |- *. rewrite EL' in Hn. clear - ND Hn Hu.
    assert (Hx : n ∈ L1 ++ [l; b1] ++ b2 :: m :: L2). { rewrite elem_of_app, !elem_of_cons in Hn. rewrite !elem_of_app, !elem_of_cons, elem_of_nil. destruct Hu as [-> | ->]; tauto. }
    assert (ND' : NoDup (c_node e :: L1 ++ [l; b1] ++ b2 :: m :: L2)).
    { eapply NoDup_Permutation_proper; [|exact ND]. simpl. rewrite (Permutation_middle L1 _ (c_node e)). f_equiv. solve_Permutation. }
    apply NoDup_cons in ND' as [N1 _]. split; [|by intros ->]. clear - Hx. rewrite !elem_of_app, !elem_of_cons, elem_of_nil in Hx. rewrite elem_of_app, !elem_of_cons. tauto. }
  assert (Hc' : c_node e ∈ inord t) by (rewrite EL; rewrite elem_of_app, !elem_of_cons; tauto).
  assert (Hset : forall x, x ∈ s_arcset s' <-> x ∈ s_arcset s /\ x <> ar).
  { intros x. rewrite Eset, !elem_of_list_In, filter_In, negb_true_iff, Nat.eqb_neq. tauto. }
  assert (HL : length (s_arcs s') = length (s_arcs s)) by (rewrite <- (fmap_length a_origin (s_arcs s')), Eor; apply fmap_length).
  constructor.
  - intros k x Hx. assert (Hx' : (a_origin <$> s_arcs s') !! k = Some (a_origin x)) by (by rewrite list_lookup_fmap, Hx).
    rewrite Eor, list_lookup_fmap in Hx'. destruct (s_arcs s !! k) as [y|] eqn:Ey; [|done]. injection Hx' as <-. by eapply K1.
  - intros k Hk. rewrite HL. apply K2. by apply Hset.
  - intros n p k Hn Hp Hk. rewrite Hsite in Hp. rewrite Eid in Hk. destruct (Hin n Hn) as [Hn' Hne].
    destruct (K3 n p k Hn' Hp Hk) as [[G1 G2]|(a' & G1 & G2 & G3)].
    + left. split.
      * apply Hset. split; [done|]. intros ->. apply Hne. by apply (i_arcs _ _ _ _ _ HI n (c_node e) ar).
      * intros n' Hn1. rewrite Hsite. apply G2. by apply Hin.
    + right. exists a'. split; [apply Hset; split; [done|]; intros ->; by apply (G3 (c_node e) Hc')|]. rewrite Eor. split; [done|].
      intros n' Hn1. rewrite Eid. apply G3. by apply Hin.
Qed.

Lemma kept_ended it s L done : kept s L done -> kept (ended A it s) L done.
Proof. intros []; constructor; assumption. Qed.
Lemma kept_started it s L done : kept s L done -> kept (started A it s) L done.
Proof. intros []; constructor; assumption. Qed.
Lemma kept_queue q s L done : kept s L done -> kept (set_queue q s) L done.
Proof. intros []; constructor; assumption. Qed.
Lemma kept_named p i s L done : kept s L done -> kept (named A p i s) L done.
Proof. intros []; constructor; assumption. Qed.

Lemma reach_kept s t done hist : reach A pts corners s t done hist -> kept s (inord t) done.
Proof.
  induction 1 as [s it q p m s' Hst Hpop Hev HI Hm HF Hq Hvs Hve Hce (Es & Eo & Em)
    |s t done hist it q k e HR IH Hpop Hev Hk Hv HI
    |s t done hist it q k e s' t' HR IH Hpop Hev Hit Hk Hv Hl HI0 HT HF HI
    |s t done hist it q p pi s' t' HR IH Hpop Hev Hit Hp Hpi HI0 HI1 HT HF HI].
  - apply kept_ended. assert (HL : length (s_arcs s') = 1) by (rewrite <- (fmap_length a_origin), Eo; done). constructor.
    + intros a x Hx. assert (Hx' : (a_origin <$> s_arcs s') !! a = Some (a_origin x)) by (by rewrite list_lookup_fmap, Hx).
      rewrite Eo in Hx'. by apply elem_of_list_lookup_2 in Hx'.
    + intros a. rewrite Es, elem_of_list_singleton. intros ->. lia.
    + intros n q' a Hn Hq' Hna. cbn in Hn. apply elem_of_list_singleton in Hn as ->. left. rewrite Es. split; [apply elem_of_list_singleton; congruence|].
      intros n' Hn'. cbn in Hn'. by apply elem_of_list_singleton in Hn' as ->.
  - by apply kept_queue.
  - apply kept_ended. eapply kept_circle; [|exact HT|by apply kept_started, kept_queue]. apply (inv_started A). exact HI0.
  - apply kept_ended. eapply kept_site; [exact HI1|exact HI|done|exact HT|]. by apply kept_started, kept_named, kept_queue.
Qed.

(* every site on the beach line has an arc that is drawn; all arcs drawn are of handled sites *)
Theorem arcs_cover s t done hist n p : reach A pts corners s t done hist -> n ∈ inord t -> site A s n = Some p ->
  exists a x, a ∈ s_arcset s /\ s_arcs s !! a = Some x /\ a_origin x = p.
Proof.
  intros HR Hn Hp. destruct (site_arcid _ _ _ Hp) as (a & Ha & Ho). assert (exists a, a ∈ s_arcset s /\ (a_origin <$> s_arcs s) !! a = Some p) as (a' & H1 & H2).
  { destruct (k_leaf _ _ _ (reach_kept _ _ _ _ HR) n p a Hn Hp Ha) as [[G1 _]|(a' & G1 & G2 & _)]; eauto. }
  rewrite list_lookup_fmap in H2. destruct (s_arcs s !! a') as [x|] eqn:E; [|done]. injection H2 as H2. eauto.
Qed.
Theorem arcs_done s t done hist a : reach A pts corners s t done hist -> a ∈ s_arcset s ->
  exists x, s_arcs s !! a = Some x /\ a_origin x ∈ done.
Proof.
  intros HR Ha. destruct (reach_kept _ _ _ _ HR) as [K1 K2 _]. destruct (lookup_lt_is_Some_2 _ _ (K2 a Ha)) as [x Hx]. exists x. eauto.
Qed.
End ArcSet.
