(* SweepReal.v -- the sweep in exact arithmetic: at every state of a run the arcs are the
   beach line of the handled sites, and the circle events that matter are pending. *)
From stdpp Require Import base list.
From Coq Require Import ZArith Reals Lra Lia Psatz.
From Verif Require Import Arith Geom Monad Tree Heapq State Sweep HeapqProofs EventOrder TreeProofs TreeOps TreeSearch Beach
  SweepBase Dcel SweepInv SweepTrans SweepSite SweepCircle SweepLoop RArith GeomReal AngleReal EdgeReal Envelope EnvelopeEvents EnvelopeRow.
Local Open Scope R_scope.

(* ---------- circle events and converging triples ---------- *)
Definition conv (a b c z : rpt) (B : R) : Prop := cross3 a b c < 0 /\ B < snd z /\ out a B z = 0 /\ out b B z = 0 /\ out c B z = 0.
Lemma sq0 u v : u * u + v * v = 0 * 0 -> u = 0 /\ v = 0.
Proof. intros H. split; apply Rsqr_0_uniq; unfold Rsqr; nra. Qed.
Lemma circle_of_some (a b c : rpt) x y r : circle_of RArith a b c = Val (Some (x, y, r)) -> conv a b c (x, y) (y - r).
Proof.
  unfold circle_of. destruct (circle_spec a b c) as [C0 C1]. destruct (Req_EM_T (cross3 a b c) 0) as [E|E]; [by rewrite (C0 E)|].
  destruct (C1 E) as (x' & y' & r' & -> & Hr & Da & Db & Dc & _). destruct (check_clockwise RArith a b c (x', y')) eqn:EC; [|done].
  intros [= -> -> ->].
  assert (Hr0 : 0 < r). { destruct Hr as [Hr|Hr]; [done|]. exfalso. subst r. apply E. destruct a as [a1 a2], b as [b1 b2], c as [c1 c2]. unfold dist2 in *; cbn [fst snd] in *. unfold cross3; cbn [fst snd]. apply sq0 in Da as [Da1 Da2]. apply sq0 in Db as [Db1 Db2].
    replace b1 with a1 by lra. replace b2 with a2 by lra. ring. }
  assert (Nca : c <> a). { intros F. apply E. rewrite F. unfold cross3. ring. }
  assert (Ncb : c <> b). { intros F. apply E. rewrite F. unfold cross3. ring. }
  apply (proj1 (clockwise_cross a b c (x, y) r Hr0 Da Db Dc Nca Ncb)) in EC.
  change (D RArith) with R in *. unfold conv, out. cbn [snd]. rewrite Da, Db, Dc. repeat split; lra.
Qed.
Lemma conv_circle (a b c z : rpt) B : conv a b c z B -> circle_of RArith a b c = Val (Some (fst z, snd z, snd z - B)).
Proof.
  intros (X & Hz & Oa & Ob & Oc). unfold circle_of. destruct (circle_spec a b c) as [_ C1]. destruct (C1 ltac:(lra)) as (x & y & r & -> & Hr & Da & Db & Dc & U).
  unfold out in *. assert (z = (x, y)) as ->. { apply U; lra. }
  cbn [fst snd] in *. assert (r = y - B) as ->. { rewrite Da in Oa. clear - Oa Hr Hz. nra. }
  assert (Nca : c <> a). { intros ->. unfold cross3 in X. lra. }
  assert (Ncb : c <> b). { intros ->. unfold cross3 in X. lra. }
  assert (check_clockwise RArith a b c (x, y) = true) as ->; [|done].
  apply (clockwise_cross a b c (x, y) (y - B)); [lra|done..|lra].
Qed.
Lemma cw_conv ls k a b c z B : ls !! k = Some a -> ls !! S k = Some b -> ls !! S (S k) = Some c -> (cw ls k z B <-> conv a b c z B).
Proof.
  intros Ha Hb Hc. split.
  - intros (a' & b' & c' & Ha' & Hb' & Hc' & X). assert (a' = a) as -> by congruence. assert (b' = b) as -> by congruence. assert (c' = c) as -> by congruence. exact X.
  - intros X. exists a, b, c. auto.
Qed.

(* ---------- searching for the arc above a site ---------- *)
Section Found.
Context {DN : Type} (h : list (node DN)) (key : node DN -> result R) (kf : nat -> R) (int : nat -> Prop).
Lemma found_between (x : R) t m : full t -> NoDup (inord t) ->
  (forall n nd, n ∈ internals t -> h !! n = Some nd -> key nd = Val (kf n)) ->
  (forall n, n ∈ internals t -> int n) ->
  (forall l1 a l2 b l3, inord t = l1 ++ a :: l2 ++ b :: l3 -> int a -> int b -> kf a <= kf b) ->
  found key Rltb Reqb h x t m ->
  exists L1 L2, inord t = L1 ++ m :: L2 /\ (forall u, u ∈ L1 -> int u -> kf u <= x) /\ (forall u, u ∈ L2 -> int u -> x <= kf u).
Proof.
  induction t as [|l IHl n r IHr]; [done|]. intros Hf Hnd HK HI HS Hfd.
  destruct (full_node _ _ _ Hf) as [[-> ->]|(Fl & Fr & Nl & Nr)].
  { exists [], []. destruct Hfd as [(_ & _ & ->)|(Hl & _)]; [|done]. split; [done|]. split; intros u Hu; by apply elem_of_nil in Hu. }
  destruct (NoDup_T _ _ _ Hnd) as (N1 & N2 & _ & _ & Nd).
  assert (Hn : n ∈ internals (T l n r)). { rewrite internals_T by done. apply elem_of_app. right. left. }
  assert (Sl : forall a l2 l3, inord l = l2 ++ a :: l3 -> int a -> kf a <= kf n).
  { intros a l2 l3 E Ha. apply (HS l2 a l3 n (inord r)); auto. cbn [inord]. rewrite E, <- app_assoc. done. }
  assert (Sr : forall b l2 l3, inord r = l2 ++ b :: l3 -> int b -> kf n <= kf b).
  { intros b l2 l3 E Hb. apply (HS (inord l) n l2 b l3); auto. cbn [inord]. by rewrite E. }
  destruct Hfd as [(-> & _)|(_ & nd & kx & Hx & Hkx & Hc)]; [done|].
  rewrite (HK n nd Hn Hx) in Hkx. injection Hkx as <-.
  destruct Hc as [[He ->]|[(He & Hlt & Hfd)|(He & Hlt & Hfd)]].
  - apply Reqb_true in He. destruct (inord_last l n Nl) as [q Eq]. exists q, (n :: inord r). cbn [inord]. rewrite Eq. rewrite <- app_assoc. split; [done|]. split.
    + intros u Hu Iu. apply elem_of_list_split in Hu as (q1 & q2 & ->). rewrite He. eapply (Sl u q1 (q2 ++ [last_leaf l n])); [|done]. rewrite Eq, <- app_assoc. done.
    + intros u Hu Iu. apply elem_of_cons in Hu as [->|Hu]; [lra|]. apply elem_of_list_split in Hu as (q1 & q2 & E). rewrite He. by apply (Sr u q1 q2).
  - apply Rltb_true in Hlt. destruct IHl as (L1 & L2 & E & U1 & U2); auto.
    { intros u nd' Hu. apply HK. rewrite internals_T by done. apply elem_of_app. by left. }
    { intros u Hu. apply HI. rewrite internals_T by done. apply elem_of_app. by left. }
    { intros l1 a l2 b l3 E. apply (HS l1 a l2 b (l3 ++ n :: inord r)). cbn [inord]. rewrite E. rewrite <- !app_assoc. simpl. rewrite <- !app_assoc. done. }
    exists L1, (L2 ++ n :: inord r). cbn [inord]. rewrite E, <- app_assoc. split; [done|]. split; [done|].
    intros u Hu Iu. apply elem_of_app in Hu as [Hu|Hu]; [by apply U2|]. apply elem_of_cons in Hu as [->|Hu]; [lra|].
    apply elem_of_list_split in Hu as (q1 & q2 & E2). pose proof (Sr u q1 q2 E2 Iu). lra.
  - apply Rltb_false in Hlt. destruct IHr as (L1 & L2 & E & U1 & U2); auto.
    { intros u nd' Hu. apply HK. rewrite internals_T by done. apply elem_of_app. right. by right. }
    { intros u Hu. apply HI. rewrite internals_T by done. apply elem_of_app. right. by right. }
    { intros l1 a l2 b l3 E. apply (HS (inord l ++ n :: l1) a l2 b l3). cbn [inord]. rewrite E. rewrite <- !app_assoc. done. }
    exists (inord l ++ n :: L1), L2. cbn [inord]. rewrite E, <- app_assoc. split; [done|]. split; [|done].
    intros u Hu Iu. apply elem_of_app in Hu as [Hu|Hu].
    + apply elem_of_list_split in Hu as (q1 & q2 & E2). pose proof (Sl u q1 q2 E2 Iu). lra.
    + apply elem_of_cons in Hu as [->|Hu]; [lra|]. by apply U1.
Qed.
End Found.

Lemma internals_odd t n : full t -> n ∈ internals t -> exists l1 l2, inord t = l1 ++ n :: l2 /\ Nat.Odd (length l1).
Proof.
  induction t as [|l IHl m r IHr]; [done|]. intros Hf Hn.
  destruct (full_node _ _ _ Hf) as [[-> ->]|(Fl & Fr & Nl & Nr)]; [by apply elem_of_nil in Hn|].
  rewrite internals_T in Hn by done. apply elem_of_app in Hn as [Hn|Hn]; [|apply elem_of_cons in Hn as [->|Hn]].
  - destruct (IHl Fl Hn) as (l1 & l2 & E & O). exists l1, (l2 ++ m :: inord r). cbn [inord]. rewrite E, <- app_assoc. done.
  - exists (inord l), (inord r). split; [done|]. by apply full_odd.
  - destruct (IHr Fr Hn) as (l1 & l2 & E & O). exists (inord l ++ m :: l1), l2. cbn [inord]. rewrite E, <- app_assoc. split; [done|].
    rewrite app_length. simpl. destruct (full_odd _ Fl) as [a Ha], O as [b Hb]. exists (a + b + 1)%nat. lia.
Qed.

Section Real.
Context (pts corners : list (pt RArith)).
Notation A := RArith.
Notation St := (state A).
Implicit Types s : St.
Notation k0 := (length corners).
(* the position of site p *)
Local Notation PT p := (@lookup nat (pt RArith) (list (pt RArith)) (@list_lookup (pt RArith)) p pts) (only parsing).

(* the arcs of the beach line, the positions of their sites, the handled sites *)
Definition lv s (L : list nat) : list nat := omap (fun n => (fun _ => n) <$> site A s n) L.
Definition spot s (n : nat) : option rpt := site A s n ≫= (fun p => (PT p)).
Definition ls s (L : list nat) : list rpt := omap (spot s) L.
Definition Hs (done : list nat) : list rpt := omap (fun p => (PT p)) done.
(* a pending circle event for the arcs k, k+1, k+2 *)
Definition pend s t (k : nat) : Prop := exists kk e, valid_event A s kk e /\ lv s (inord t) !! S k = Some (c_node e).

Lemma omap_same {X Y} (f g : X -> option Y) (L : list X) : (forall x, x ∈ L -> f x = g x) -> omap f L = omap g L.
Proof. induction L as [|x L IH]; [done|]. intros H. simpl. rewrite (H x) by left. destruct (g x); [f_equal|]; apply IH; intros; apply H; by right. Qed.
Lemma lv_app s L1 L2 : lv s (L1 ++ L2) = lv s L1 ++ lv s L2. Proof. apply omap_app. Qed.
Lemma ls_app s L1 L2 : ls s (L1 ++ L2) = ls s L1 ++ ls s L2. Proof. apply omap_app. Qed.
Lemma lv_site s n p L : site A s n = Some p -> lv s (n :: L) = n :: lv s L. Proof. unfold lv. simpl. by intros ->. Qed.
Lemma lv_none s n L : site A s n = None -> lv s (n :: L) = lv s L. Proof. unfold lv. simpl. by intros ->. Qed.
Lemma ls_site s n p P L : site A s n = Some p -> (PT p) = Some P -> ls s (n :: L) = P :: ls s L.
Proof. unfold ls, spot. simpl. intros -> E. simpl. by rewrite E. Qed.
Lemma ls_none s n L : site A s n = None -> ls s (n :: L) = ls s L. Proof. unfold ls, spot. simpl. by intros ->. Qed.
Lemma lv_ext s s' L : (forall n, n ∈ L -> site A s' n = site A s n) -> lv s' L = lv s L.
Proof. intros H. apply omap_same. intros n Hn. by rewrite H. Qed.
Lemma ls_ext s s' L : (forall n, n ∈ L -> site A s' n = site A s n) -> ls s' L = ls s L.
Proof. intros H. apply omap_same. intros n Hn. unfold spot. by rewrite H. Qed.
Lemma lv_in s L n : n ∈ lv s L <-> n ∈ L /\ exists p, site A s n = Some p.
Proof.
  unfold lv. rewrite elem_of_list_omap. split.
  - intros (m & Hm & E). destruct (site A s m) as [p|] eqn:Hp; [|done]. injection E as ->. eauto.
  - intros [Hn [p Hp]]. exists n. split; [done|]. by rewrite Hp.
Qed.
Lemma lv_nodup s L : NoDup L -> NoDup (lv s L).
Proof.
  induction L as [|n L IH]; [done|]. intros [H1 H2]%NoDup_cons. destruct (site A s n) as [p|] eqn:Hp.
  - rewrite (lv_site _ _ _ _ Hp). apply NoDup_cons. split; [|by apply IH]. rewrite lv_in. tauto.
  - rewrite (lv_none _ _ _ Hp). by apply IH.
Qed.
Lemma ls_lv s L i : (forall n p, n ∈ L -> site A s n = Some p -> exists P, (PT p) = Some P) -> ls s L !! i = lv s L !! i ≫= spot s.
Proof.
  revert i. induction L as [|n L IH]; intros i H; [done|]. assert (H' : forall m p, m ∈ L -> site A s m = Some p -> exists P, (PT p) = Some P) by (intros; eapply H; eauto; by right).
  destruct (site A s n) as [p|] eqn:Hp.
  - destruct (H n p) as [P HP]; [left|done|]. rewrite (lv_site _ _ _ _ Hp), (ls_site _ _ _ _ _ Hp HP). destruct i as [|i]; simpl; [|by apply IH]. unfold spot. rewrite Hp. done.
  - rewrite (lv_none _ _ _ Hp), (ls_none _ _ _ Hp). by apply IH.
Qed.
Lemma ls_len s L : (forall n p, n ∈ L -> site A s n = Some p -> exists P, (PT p) = Some P) -> length (ls s L) = length (lv s L).
Proof.
  induction L as [|n L IH]; intros H; [done|]. assert (H' : forall m p, m ∈ L -> site A s m = Some p -> exists P, (PT p) = Some P) by (intros; eapply H; eauto; by right).
  destruct (site A s n) as [p|] eqn:Hp.
  - destruct (H n p) as [P HP]; [left|done|]. rewrite (lv_site _ _ _ _ Hp), (ls_site _ _ _ _ _ Hp HP). simpl. by rewrite IH.
  - rewrite (lv_none _ _ _ Hp), (ls_none _ _ _ Hp). by apply IH.
Qed.

Local Arguments lv : simpl never.
Local Arguments ls : simpl never.

(* ---------- the state between two events ---------- *)
Section State.
Context s t done (HI : Inv A s t done k0) (HP : p_xy <$> s_points s = pts).

Lemma st_site n p : n ∈ inord t -> site A s n = Some p -> exists P : pt A, (PT p) = Some P /\ P ∈ Hs done.
Proof.
  intros Hn Hp. destruct (inv_site _ _ _ _ _ _ _ HI Hn Hp) as [Hd [P HP']]. rewrite (pxy_pts A pts s p HP) in HP'. exists P. split; [done|]. apply elem_of_list_omap. eauto.
Qed.
Lemma st_site' n p : n ∈ inord t -> site A s n = Some p -> exists P, (PT p) = Some P.
Proof. intros H1 H2. destruct (st_site n p H1 H2) as (P & ? & _). eauto. Qed.
Lemma st_sub (L : list nat) n p : (forall m, m ∈ L -> m ∈ inord t) -> n ∈ L -> site A s n = Some p -> exists P, (PT p) = Some P.
Proof. intros H Hn. apply st_site'. by apply H. Qed.

(* a pending event is for a converging triple *)
Lemma live_cw k e : live A s (inord t) k e -> exists i, lv s (inord t) !! S i = Some (c_node e) /\ cw (ls s (inord t)) i (c_x e, c_y e) (c_y e - c_r e).
Proof.
  intros (L1 & l & b1 & b2 & m & L2 & a & b & c & ar & x & EL & Hl & Hb1 & Hn & Hb2 & Hm & _ & (pa & pb & pc & P3 & HC) & _).
  unfold points3 in P3. rewrite !(pxy_pts A pts s _ HP) in P3.
  destruct ((PT a)) as [Pa|] eqn:Ea; [|done]. destruct ((PT b)) as [Pb|] eqn:Eb; [|done]. destruct ((PT c)) as [Pc|] eqn:Ec; [|done]. simpl in P3. injection P3 as -> -> ->.
  assert (ELv : lv s (inord t) = lv s L1 ++ l :: c_node e :: m :: lv s L2).
  { rewrite EL, <- app_assoc, lv_app. cbn [app]. by rewrite (lv_site _ _ _ _ Hl), (lv_none _ _ _ Hb1), (lv_site _ _ _ _ Hn), (lv_none _ _ _ Hb2), (lv_site _ _ _ _ Hm). }
  assert (ELs : ls s (inord t) = ls s L1 ++ pa :: pb :: pc :: ls s L2).
  { rewrite EL, <- app_assoc, ls_app. cbn [app]. by rewrite (ls_site _ _ _ _ _ Hl Ea), (ls_none _ _ _ Hb1), (ls_site _ _ _ _ _ Hn Eb), (ls_none _ _ _ Hb2), (ls_site _ _ _ _ _ Hm Ec). }
  assert (EK : length (ls s L1) = length (lv s L1)). { apply ls_len. intros n p Hin. apply st_site'. rewrite EL. rewrite !elem_of_app. auto. }
  exists (length (lv s L1)). rewrite ELv, ELs. split.
  - rewrite lookup_app_r by lia. replace (S (length (lv s L1)) - length (lv s L1))%nat with 1%nat by lia. done.
  - eapply cw_conv; [| | |by apply circle_of_some].
    + rewrite lookup_app_r by lia. rewrite EK. by replace (length (lv s L1) - length (lv s L1))%nat with 0%nat by lia.
    + rewrite lookup_app_r by lia. rewrite EK. by replace (S (length (lv s L1)) - length (lv s L1))%nat with 1%nat by lia.
    + rewrite lookup_app_r by lia. rewrite EK. by replace (S (S (length (lv s L1))) - length (lv s L1))%nat with 2%nat by lia.
Qed.
Lemma valid_live k e : valid_event A s k e -> cev_item A k e ∈ s_queue s /\ live A s (inord t) k e.
Proof.
  intros ((it & Hit & Hk) & He & Hv). pose proof (i_queue _ _ _ _ _ HI it Hit) as HQ. rewrite Hk in HQ. destruct HQ as (e' & H1 & H2 & H3).
  assert (e' = e) as -> by congruence. subst it. auto.
Qed.
Lemma valid_cw k e i : valid_event A s k e -> lv s (inord t) !! S i = Some (c_node e) -> cw (ls s (inord t)) i (c_x e, c_y e) (c_y e - c_r e).
Proof.
  intros Hv Hi. destruct (live_cw k e (proj2 (valid_live k e Hv))) as (j & Hj & C).
  assert (S i = S j) as [= ->]; [|done]. eapply NoDup_lookup; [apply (lv_nodup s), (i_nodup _ _ _ _ _ HI)|done|done].
Qed.
Lemma pend_item j z B : pend s t j -> cw (ls s (inord t)) j z B -> exists k e, cev_item A k e ∈ s_queue s /\ valid_event A s k e /\ lv s (inord t) !! S j = Some (c_node e) /\
  i_y (cev_item A k e) = B /\ i_x (cev_item A k e) = fst z.
Proof.
  intros (k & e & Hv & Hj) C. exists k, e. split; [by apply valid_live|]. split; [done|]. split; [done|].
  pose proof (valid_cw k e j Hv Hj) as C'. destruct (cw_unique _ _ _ _ _ _ C C') as [-> ->]. done.
Qed.

(* the breakpoints *)
Definition kf (l : R) (n : nat) : R :=
  match label A s n with Some (p, q) => match ((PT p) : option (pt A)), ((PT q) : option (pt A)) with Some P, Some Q => gi_x P Q l | _, _ => 0 end | None => 0 end.
Lemma st_bp l1 b l2 : inord t = l1 ++ b :: l2 -> site A s b = None ->
  exists pre m m' suf p q P Q, l1 = pre ++ [m] /\ l2 = m' :: suf /\ label A s b = Some (p, q) /\ site A s m = Some p /\ site A s m' = Some q /\ (PT p) = Some P /\ (PT q) = Some Q /\
    ls s (inord t) = ls s pre ++ P :: Q :: ls s suf /\ (forall l, kf l b = gi_x P Q l).
Proof.
  intros E Hb. destruct (chain_odd_label _ _ _ _ _ _ (i_chain _ _ _ _ _ HI) E Hb) as (pre & m & m' & suf & p & q & -> & -> & H1 & H2 & H3 & _).
  destruct (st_site' m p) as [P HP']; [rewrite E; rewrite !elem_of_app; left; right; left|done|].
  destruct (st_site' m' q) as [Q HQ']; [rewrite E; rewrite !elem_of_app; right; right; left|done|].
  exists pre, m, m', suf, p, q, P, Q. repeat (split; [done|]). split.
  - rewrite E, <- app_assoc, ls_app. cbn [app]. by rewrite (ls_site _ _ _ _ _ H1 HP'), (ls_none _ _ _ Hb), (ls_site _ _ _ _ _ H2 HQ').
  - intros l. unfold kf. rewrite H3. cbn beta iota. by rewrite HP', HQ'.
Qed.
Lemma st_sorted l l1 a l2 b l3 : beach_ok l (Hs done) (ls s (inord t)) -> inord t = l1 ++ a :: l2 ++ b :: l3 -> site A s a = None -> site A s b = None -> kf l a <= kf l b.
Proof.
  intros BO E Ha Hb. destruct (st_bp _ _ _ E Ha) as (pre & m & m' & suf & p & q & P & Q & -> & E2 & _ & HSm & _ & HPp & _ & EL & K1).
  assert (E' : inord t = ((pre ++ [m]) ++ a :: l2) ++ b :: l3) by (rewrite E, <- !app_assoc; done).
  destruct (st_bp _ _ _ E' Hb) as (pre' & n & n' & suf' & p' & q' & P' & Q' & F1 & F2 & _ & HSn & _ & HPn & _ & EL' & K2).
  rewrite K1, K2. eapply (b_mono' _ _ l (length (ls s pre)) (length (ls s pre'))); [exact BO| |..].
  - assert (EE : ls s ((pre ++ [m]) ++ a :: l2) = ls s (pre' ++ [n])) by congruence. rewrite !ls_app in EE. rewrite (ls_site _ m _ _ _ HSm HPp), (ls_site _ n _ _ _ HSn HPn) in EE.
    apply (f_equal length) in EE. rewrite !app_length in EE. simpl in EE. lia.
  - rewrite EL. by rewrite lookup_app_r, Nat.sub_diag by lia.
  - rewrite EL. rewrite lookup_app_r by lia. by replace (S (length (ls s pre)) - length (ls s pre))%nat with 1%nat by lia.
  - rewrite EL'. by rewrite lookup_app_r, Nat.sub_diag by lia.
  - rewrite EL'. rewrite lookup_app_r by lia. by replace (S (length (ls s pre')) - length (ls s pre'))%nat with 1%nat by lia.
Qed.
Lemma st_int n : n ∈ internals t -> site A s n = None.
Proof.
  intros Hn. destruct (internals_odd t n (i_full _ _ _ _ _ HI) Hn) as (l1 & l2 & E & O). destruct (site A s n) as [p|] eqn:Hp; [|done]. exfalso.
  pose proof (chain_even _ _ (site_label A s) _ n l1 l2 p (i_chain _ _ _ _ _ HI) E Hp) as [a Ha]. destruct O as [b Hb]. lia.
Qed.
Lemma st_key l n nd : (forall p, p ∈ Hs done -> l <= snd p) -> n ∈ internals t -> s_nodes s !! n = Some nd -> node_key A s l nd = Val (kf l n).
Proof.
  intros HB Hn Hnd. pose proof (st_int n Hn) as Hs0. pose proof (internals_inord t n Hn) as Hin. apply elem_of_list_split in Hin as (l1 & l2 & E).
  destruct (st_bp _ _ _ E Hs0) as (pre & m & m' & suf & p & q & P & Q & -> & -> & HL & Hm & Hm' & Hp & Hq & _ & K).
  rewrite (node_key_label A s l n nd p q HL Hnd), K. unfold bp_key, lookup_r.
  pose proof (eq_trans (pxy_pts A pts s p HP) Hp) as Xp. pose proof (eq_trans (pxy_pts A pts s q HP) Hq) as Xq. unfold pxy in Xp, Xq.
  destruct (s_points s !! p) as [xp|]; [|done]. destruct (s_points s !! q) as [xq|]; [|done]. simpl in Xp, Xq. injection Xp as Xp. injection Xq as Xq. cbn [rbind]. rewrite Xp, Xq.
  destruct (st_site m p) as (P' & E1 & H1); [rewrite E, !elem_of_app; left; right; left|done|]. assert (P' = P) as -> by congruence.
  destruct (st_site m' q) as (Q' & E2 & H2); [rewrite E, !elem_of_app; right; right; left|done|]. assert (Q' = Q) as -> by congruence.
  destruct (gi_value P Q l None (HB _ H1) (HB _ H2)) as (y & G & _).
  match goal with |- rbind ?x _ = _ => change (rbind x (fun q => Val (fst q)) = Val (gi_x P Q l)); transitivity (rbind (Val (gi_x P Q l, y)) (fun q : R * ext RArith => Val (fst q))); [f_equal; exact G|reflexivity] end.
Qed.
(* the arc found for a site lies above it *)
Lemma st_under l x L1 m L2 p P : beach_ok l (Hs done) (ls s (inord t)) -> inord t = L1 ++ m :: L2 -> site A s m = Some p -> (PT p) = Some P ->
  found (node_key A s l) (dltb A) (deqb A) (s_nodes s) x t m -> under (ls s (inord t)) l (length (ls s L1)) P x.
Proof.
  intros BO E Hm HPp Hfd. pose proof (i_nodup _ _ _ _ _ HI) as HN.
  destruct (found_between (s_nodes s) (node_key A s l) (kf l) (fun n => site A s n = None) x t m (i_full _ _ _ _ _ HI) HN) as (K1 & K2 & EK & U1 & U2).
  - intros n nd. apply st_key. apply (b_above _ _ _ BO).
  - apply st_int.
  - intros l1 a l2 b l3 E' Na Nb. by apply (st_sorted l l1 a l2 b l3).
  - exact Hfd.
  - rewrite E in EK, HN. apply nodup_pos in EK as [<- <-]; [|done].
    assert (ELs : ls s (inord t) = ls s L1 ++ P :: ls s L2) by (rewrite E, ls_app, (ls_site _ _ _ _ _ Hm HPp); done).
    split; [|split].
    + rewrite ELs. by rewrite lookup_app_r, Nat.sub_diag by lia.
    + intros j b Ej Hb. destruct L1 as [|b1 L1 _] using rev_ind; [done|].
      pose proof E as E'. rewrite <- app_assoc in E'. simpl in E'.
      assert (Hb1 : site A s b1 = None). { eapply (chain_gap A s L1 b1 m L2); [rewrite <- E'; apply (i_chain _ _ _ _ _ HI)|done]. }
      destruct (st_bp _ _ _ E' Hb1) as (pre & n & m' & suf & p' & q' & P' & Q' & -> & [= <- <-] & _ & Hn & Hm' & Hp' & Hq' & EL & K).
      assert (Q' = P) as -> by congruence.
      assert (length (ls s pre) = j) as EJ. { rewrite !ls_app, (ls_site _ n _ _ _ Hn Hp'), (ls_none _ _ _ Hb1), !app_length in Ej. simpl in Ej. lia. }
      rewrite EL, lookup_app_r in Hb by lia. rewrite EJ, Nat.sub_diag in Hb. injection Hb as ->. rewrite <- K. apply U1; [|done]. apply elem_of_app. right. left.
    + intros b Hb. destruct L2 as [|b1 L2]. { rewrite ELs, lookup_app_r in Hb by lia. replace (S (length (ls s L1)) - length (ls s L1))%nat with 1%nat in Hb by lia. done. }
      assert (Hb1 : site A s b1 = None). { eapply (chain_gap' A s L1 m b1 L2); [rewrite <- E; apply (i_chain _ _ _ _ _ HI)|done]. }
      assert (E' : inord t = (L1 ++ [m]) ++ b1 :: L2) by (rewrite E, <- app_assoc; done).
      destruct (st_bp _ _ _ E' Hb1) as (pre & n & m' & suf & p' & q' & P' & Q' & F1 & -> & _ & Hn & Hm' & Hp' & Hq' & EL & K).
      apply app_inj_tail in F1 as [<- <-]. assert (P' = P) as -> by congruence.
      rewrite EL, lookup_app_r in Hb by lia. replace (S (length (ls s L1)) - length (ls s L1))%nat with 1%nat in Hb by lia. injection Hb as ->. rewrite <- K. apply U2; [left|done].
Qed.
(* the neighbours of an arc *)
Lemma st_pred L1 n L2 p : inord t = L1 ++ n :: L2 -> site A s n = Some p ->
  L1 = [] \/ exists pre m b q Q, L1 = pre ++ [m; b] /\ site A s m = Some q /\ (PT q) = Some Q /\ site A s b = None /\ pred_leaf L1 = Some m.
Proof.
  intros E Hn. destruct L1 as [|b L1 _] using rev_ind; [by left|]. right. pose proof E as E'. rewrite <- app_assoc in E'. simpl in E'.
  assert (Hb : site A s b = None). { eapply (chain_gap A s L1 b n L2); [rewrite <- E'; apply (i_chain _ _ _ _ _ HI)|done]. }
  destruct (st_bp _ _ _ E' Hb) as (pre & m & m' & suf & q & q' & Q & Q' & -> & _ & _ & Hm & _ & HQ & _).
  exists pre, m, b, q, Q. rewrite <- app_assoc. repeat (split; [done|]). unfold pred_leaf. by rewrite rev_app_distr.
Qed.
Lemma st_succ L1 n L2 p : inord t = L1 ++ n :: L2 -> site A s n = Some p ->
  L2 = [] \/ exists suf m b q Q, L2 = b :: m :: suf /\ site A s m = Some q /\ (PT q) = Some Q /\ site A s b = None /\ succ_leaf L2 = Some m.
Proof.
  intros E Hn. destruct L2 as [|b L2]; [by left|]. right.
  assert (Hb : site A s b = None). { eapply (chain_gap' A s L1 n b L2); [rewrite <- E; apply (i_chain _ _ _ _ _ HI)|done]. }
  assert (E' : inord t = (L1 ++ [n]) ++ b :: L2) by (rewrite E, <- app_assoc; done).
  destruct (st_bp _ _ _ E' Hb) as (pre & m & m' & suf & q & q' & Q & Q' & _ & -> & _ & _ & Hm & _ & HQ & _).
  exists suf, m', b, q', Q'. repeat (split; [done|]). done.
Qed.
End State.
End Real.
