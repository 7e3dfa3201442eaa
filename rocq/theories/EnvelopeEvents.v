(* EnvelopeEvents.v -- the beach line in exact arithmetic together with the pending circle
   events: what must be pending so that no arc is overlooked. *)
From stdpp Require Import base list.
From Coq Require Import ZArith Reals Lra Lia Psatz.
From Verif Require Import Arith Geom RArith GeomReal AngleReal EdgeReal Envelope.
Local Open Scope R_scope.

(* the arcs k, k+1, k+2 converge: they meet at z when the line reaches y = B *)
Definition cw (ls : list rpt) (k : nat) (z : rpt) (B : R) : Prop := exists a b c, ls !! k = Some a /\ ls !! S k = Some b /\ ls !! S (S k) = Some c /\
  cross3 a b c < 0 /\ B < snd z /\ out a B z = 0 /\ out b B z = 0 /\ out c B z = 0.
(* every converging triple has a pending event, or one for the same circle is pending, or a
   handled site is inside its circle *)
Definition Q1 (H ls : list rpt) (pend : nat -> Prop) : Prop := forall k z B, cw ls k z B -> (exists j, pend j /\ cw ls j z B) \/ exists p, p ∈ H /\ out p B z < 0.
(* only one triple converges on a circle whose lowest point is a handled site *)
Definition Q2 (H ls : list rpt) : Prop := forall j k z B, cw ls j z B -> cw ls k z B -> (fst z, B) ∈ H -> j = k.

Lemma cw_below l H ls k z B : beach_ok l H ls -> cw ls k z B -> B <= l.
Proof. intros BO (a & b & c & Ha & Hb & Hc & X & Hz & Oa & Ob & Oc). by apply (meet_below l H ls k a b c z B). Qed.
Lemma cw_empty l H ls k z : beach_ok l H ls -> cw ls k z l -> forall p, p ∈ H -> 0 <= out p l z.
Proof.
  intros BO (a & b & c & Ha & Hb & Hc & X & Hz & Oa & Ob & Oc) p Hp.
  destruct (meet_now l H ls k a b c z BO Ha Hb Hc X Hz Oa Ob Oc) as [E _]. by apply (b_edge _ _ _ _ _ _ _ BO Ha Hb E).
Qed.
(* the circle of a triple is determined *)
Lemma same_circle a z z' B : B < snd a -> fst z = fst z' -> out a B z = 0 -> out a B z' = 0 -> z = z'.
Proof.
  intros L Ex O1 O2. destruct z as [x y], z' as [x' y']. cbn [fst] in Ex. subst x'. apply out_para_eq in O1; [|done]. apply out_para_eq in O2; [|done]. congruence.
Qed.
Lemma three_circle a b c z z' B B' : cross3 a b c < 0 -> B < snd z -> B' < snd z' -> out a B z = 0 -> out b B z = 0 -> out c B z = 0 ->
  out a B' z' = 0 -> out b B' z' = 0 -> out c B' z' = 0 -> z = z' /\ B = B'.
Proof.
  intros X Hz Hz' Oa Ob Oc Oa' Ob' Oc'. assert (N : a <> b) by (intros ->; unfold cross3 in X; lra).
  destruct (same_line a b z z' N) as [s Es]; [unfold out in *; lra|unfold out in *; lra|].
  assert (E1 : 0 = 0 + 2 * s * cross3 a b c).
  { rewrite Es in Oa', Oc'. pose proof (out_move a b c B B' z s Oa Oa') as E. rewrite Oc, Oc' in E. lra. }
  assert (s = 0) as -> by nra. assert (z' = z) as ->. { rewrite Es. destruct z. unfold move. cbn [fst snd]. f_equal; ring. }
  split; [done|]. unfold out in *. assert ((snd z - B) * (snd z - B) = (snd z - B') * (snd z - B')) by lra. nra.
Qed.
Lemma cw_unique ls k z z' B B' : cw ls k z B -> cw ls k z' B' -> z = z' /\ B = B'.
Proof.
  intros (a & b & c & Ha & Hb & Hc & X & Hz & Oa & Ob & Oc) (a' & b' & c' & Ha' & Hb' & Hc' & _ & Hz' & Oa' & Ob' & Oc').
  assert (a' = a) as -> by congruence. assert (b' = b) as -> by congruence. assert (c' = c) as -> by congruence. by apply (three_circle a b c).
Qed.

Lemma max_or_none (P : nat -> R -> Prop) n : (forall k B B', P k B -> P k B' -> B = B') ->
  (forall k B, (k < n)%nat -> ~ P k B) \/ exists k B, P k B /\ forall k' B', (k' < n)%nat -> P k' B' -> B' <= B.
Proof.
  intros U. induction n as [|n IH]; [left; lia|]. destruct (Classical_Prop.classic (exists B, P n B)) as [[B HB]|HN].
  - right. destruct IH as [IH|(k & B1 & H1 & H2)].
    + exists n, B. split; [done|]. intros k' B' Hk' H'. destruct (decide (k' = n)) as [->|]; [rewrite (U n B' B); auto; lra|].
      destruct (IH k' B' ltac:(lia) H').
    + destruct (Rle_lt_dec B1 B) as [L|L].
      * exists n, B. split; [done|]. intros k' B' Hk' H'. destruct (decide (k' = n)) as [->|]; [rewrite (U n B' B); auto; lra|].
        specialize (H2 k' B' ltac:(lia) H'). lra.
      * exists k, B1. split; [done|]. intros k' B' Hk' H'. destruct (decide (k' = n)) as [->|]; [rewrite (U n B' B); auto; lra|].
        apply (H2 k' B' ltac:(lia) H').
  - destruct IH as [IH|(k & B1 & H1 & H2)].
    + left. intros k B Hk HP. destruct (decide (k = n)) as [->|]; [eauto|]. apply (IH k B); [lia|done].
    + right. exists k, B1. split; [done|]. intros k' B' Hk' H'. destruct (decide (k' = n)) as [->|]; [exfalso; eauto|]. apply (H2 k'); [lia|done].
Qed.

(* the line moves down to the next event *)
Theorem step_down l0 l H ls pend : beach_ok l0 H ls -> l <= l0 -> Q1 H ls pend -> (forall j z B, pend j -> cw ls j z B -> B <= l) -> beach_ok l H ls.
Proof.
  intros BO Hl HQ HP. destruct (Req_dec l l0) as [->|Hne]; [done|]. assert (Hl' : l < l0) by lra. clear Hl Hne.
  set (P := fun k B => exists z, cw ls k z B /\ l < B <= l0).
  destruct (max_or_none P (length ls)) as [HN|(k & B & (z & Hz & HB) & HM)].
  - intros k B B' (z & H1 & _) (z' & H2 & _). by eapply cw_unique.
  - apply (beach_down H ls l0 l BO Hl'). intros k a b c z B Ha Hb Hc X Hz Oa Ob Oc HB.
    apply (HN k B); [by eapply lookup_lt_Some|]. exists z. split; [|done]. exists a, b, c. auto 10.
  - exfalso. assert (BB : beach_ok B H ls).
    { destruct (Req_dec B l0) as [->|Hne]; [done|]. apply (beach_down H ls l0 B BO ltac:(lra)).
      intros k' a b c z' B' Ha Hb Hc X Hz' Oa Ob Oc HB'. assert (B' <= B); [|lra].
      apply (HM k' B'); [by eapply lookup_lt_Some|]. exists z'. split; [exists a, b, c; auto 10|lra]. }
    destruct (HQ k z B Hz) as [(j & Hj & Hj')|(p & Hp & Op)].
    + specialize (HP j z B Hj Hj'). lra.
    + pose proof (cw_empty B H ls k z BB Hz p Hp). lra.
Qed.

(* a site that appears under an arc which will vanish later is inside the circle *)
Lemma site_inside l H ls j p a e z B n : beach_ok l H ls -> ls !! j = Some p -> ls !! S j = Some a -> ls !! S (S j) = Some e ->
  cross3 p a e < 0 -> B < snd z -> out p B z = 0 -> out a B z = 0 -> out e B z = 0 -> B < l ->
  snd n = l -> n ∉ H -> under ls l (S j) a (fst n) -> l < snd a -> out n B z < 0.
Proof.
  intros BO Hp Ha He X Hz Op Oa Oe HB En Hn (_ & UL & UR) La. specialize (UL j p eq_refl Hp). specialize (UR e He).
  destruct (b_edge_at _ _ _ _ _ _ BO Hp Ha) as (z1 & E1 & X1). destruct (b_edge_at _ _ _ _ _ _ BO Ha He) as (z2 & E2 & X2).
  pose proof (b_pair_ok _ _ _ _ _ _ BO Hp Ha) as (Lp & _ & _ & N1 & _). pose proof (b_pair_ok _ _ _ _ _ _ BO Ha He) as (_ & Le & _ & N2 & _).
  assert (W : forall i k q zz w, (i = a \/ k = a) -> i <> k -> edge_at i k l zz -> l <= snd i -> l <= snd k -> out q l zz >= 0 -> cross3 i k q < 0 -> out i B z = 0 -> out k B z = 0 -> out q B z = 0 ->
     w = (fst zz, l) -> out w B z <= 0 /\ (out w B z = 0 -> w = i \/ w = k)).
  { intros i k q zz w Hia N E Li Lk Dq Xq Oi Ok Oq ->. pose proof E as (Hzz & Oi' & Ok' & C).
    destruct (same_line i k zz z N) as [s Es]; [unfold out in *; lra|unfold out in *; lra|].
    assert (Oi2 := Oi). assert (Oq2 := Oq). rewrite Es in Oi2, Oq2. rewrite (out_move i k q l B zz s Oi' Oi2) in Oq2.
    assert (Hs : 0 <= s) by (clear - Oq2 Dq Xq; nra).
    assert (Ew : out (fst zz, l) B z = 2 * s * cross3 i k (fst zz, l)).
    { rewrite Es at 1. rewrite (out_move i k _ l B zz s Oi' Oi2). rewrite out_bottom. ring. }
    rewrite Ew. split; [clear - Hs C; nra|]. intros E0.
    assert (s <> 0). { intros ->. assert (z = zz) as ->. { rewrite Es. destruct zz. unfold move. cbn [fst snd]. f_equal; ring. }
      clear - Oi Oi' HB Hzz Hz. unfold out in *. nra. }
    assert (C0 : cross3 i k (fst zz, l) = 0) by (clear - E0 H0 Hs; nra).
    destruct (Req_dec (snd i) l) as [Ei|Ei]; [left; symmetry; by apply bottom_point|].
    destruct (Req_dec (snd k) l) as [Ek|Ek]; [right; symmetry; by apply bottom_point|].
    exfalso. rewrite slope_cross in C0 by lra.
    assert (P : 0 < (snd i - l) * (snd k - l)) by (apply Rmult_lt_0_compat; lra).
    apply N. apply (slope_inj i k l zz); try lra; auto. clear - P C0. nra. }
  assert (pH : p ∈ H) by (by eapply (b_sub _ _ _ BO)). assert (aH : a ∈ H) by (by eapply (b_sub _ _ _ BO)). assert (eH : e ∈ H) by (by eapply (b_sub _ _ _ BO)).
  destruct (W p a e z1 (fst z1, l)) as [W1 W1']; auto; [lra| |].
  { apply Rle_ge. by apply (b_edge _ _ _ _ _ _ _ BO Hp Ha E1). }
  destruct (W a e p z2 (fst z2, l)) as [W2 W2']; auto; [lra| | |].
  { apply Rle_ge. by apply (b_edge _ _ _ _ _ _ _ BO Ha He E2). }
  { replace (cross3 a e p) with (cross3 p a e) by (unfold cross3; ring). done. }
  clear W. destruct n as [x y]. cbn [fst snd] in *. subst y. rewrite X1 in W1, W1'. rewrite X2 in W2, W2'.
  destruct (Req_dec x (gi_x p a l)) as [Ex|Nx].
  { subst x. destruct (Req_dec (out (gi_x p a l, l) B z) 0) as [E0|]; [|lra]. destruct (W1' E0) as [Eq|Eq]; exfalso; apply Hn; rewrite Eq; done. }
  destruct (Req_dec x (gi_x a e l)) as [Ex|Nx'].
  { subst x. destruct (Req_dec (out (gi_x a e l, l) B z) 0) as [E0|]; [|lra]. destruct (W2' E0) as [Eq|Eq]; exfalso; apply Hn; rewrite Eq; done. }
  set (x1 := gi_x p a l) in *. set (x2 := gi_x a e l) in *. clear - W1 W2 UL UR Nx Nx'. unfold out, dist2 in *; cbn [fst snd] in *.
  assert (L1 : x1 < x) by lra. assert (L2 : x < x2) by lra.
  (* x is a proper mean of x1 and x2 *)
  set (c := (snd z - l) * (snd z - l) - (snd z - B) * (snd z - B)) in *.
  assert (A1 : (fst z - x1) * (fst z - x1) + c <= 0) by (unfold c; lra). assert (A2 : (fst z - x2) * (fst z - x2) + c <= 0) by (unfold c; lra).
  assert (A3 : (fst z - x) * (fst z - x) + c < 0); [|unfold c in A3; lra]. clearbody c.
  assert (P : 0 < (x - x1) * (x2 - x)) by (apply Rmult_lt_0_compat; lra). clear W1 W2.
  assert (E : (x2 - x1) * ((fst z - x) * (fst z - x) + c) = (x2 - x) * ((fst z - x1) * (fst z - x1) + c) + (x - x1) * ((fst z - x2) * (fst z - x2) + c) - (x2 - x1) * ((x - x1) * (x2 - x))) by ring.
  assert (P1 : 0 <= (x2 - x) * - ((fst z - x1) * (fst z - x1) + c)) by (apply Rmult_le_pos; lra).
  assert (P2 : 0 <= (x - x1) * - ((fst z - x2) * (fst z - x2) + c)) by (apply Rmult_le_pos; lra).
  assert (P3 : 0 < (x2 - x1) * ((x - x1) * (x2 - x))) by (apply Rmult_lt_0_compat; lra).
  assert (P4 : (x2 - x1) * ((fst z - x) * (fst z - x) + c) < 0) by lra.
  destruct (Rlt_le_dec ((fst z - x) * (fst z - x) + c) 0) as [|C]; [done|]. assert (0 <= (x2 - x1) * ((fst z - x) * (fst z - x) + c)) by (apply Rmult_le_pos; lra). lra.
Qed.

(* ---------- a site event ---------- *)
Section SiteStep.
Context (l : R) (H ls1 ls2 : list rpt) (a n : rpt) (pend pend' : nat -> Prop).
Notation ls := (ls1 ++ a :: ls2).
Notation ls' := (ls1 ++ a :: n :: a :: ls2).
Notation k := (length ls1).
Context (BO : beach_ok l H ls) (En : snd n = l) (Hn : n ∉ H) (HU : under ls l k a (fst n)).
Context (HQ1 : Q1 H ls pend) (HQ2 : Q2 H ls).
(* circle events come before a site event at the same position *)
Context (HF : forall j z, pend j -> cw ls j z l -> fst z <> fst n).
(* events are cancelled only if their middle arc is the one that is split *)
Context (HK : forall j, pend j -> (S j <> k)%nat -> pend' (if decide (j < k)%nat then j else j + 2)%nat).
(* the two new triples *)
Context (HL : forall i z B, S i = k -> cw ls' i z B -> pend' i).
Context (HR : forall z B, cw ls' (S k) z B -> pend' (S k) \/ exists i z', S i = k /\ pend' i /\ cw ls' i z' B /\ fst z' = fst z).

Let BO' : beach_ok l (H ++ [n]) ls' := beach_site l H ls1 ls2 a n BO En Hn HU.
Let La : l < snd a := a_above l H ls1 ls2 a n BO En Hn HU.

Lemma ss_tri i z B : cw ls' i z B -> ((S (S i) <= k)%nat /\ cw ls i z B) \/
  (S i = k /\ exists p, ls !! i = Some p /\ cross3 p a n < 0 /\ B < snd z /\ out p B z = 0 /\ out a B z = 0 /\ out n B z = 0) \/
  (i = S k /\ exists e, ls !! S k = Some e /\ cross3 n a e < 0 /\ B < snd z /\ out n B z = 0 /\ out a B z = 0 /\ out e B z = 0) \/
  ((S (S k) <= i)%nat /\ cw ls (i - 2)%nat z B).
Proof.
  intros (p & q & r & Hp & Hq & Hr & X & Hz & Op & Oq & Or).
  destruct (s_adj ls1 ls2 a n i p q Hp Hq) as [(I1 & H1 & H2)|[(I1 & -> & ->)|[(I1 & -> & ->)|(I1 & H1 & H2)]]];
  destruct (s_adj ls1 ls2 a n (S i) _ r Hq Hr) as [(I2 & H3 & H4)|[(I2 & E1 & ->)|[(I2 & E1 & ->)|(I2 & H3 & H4)]]]; try lia.
  - left. split; [lia|]. exists p, q, r. auto 10.
  - subst q. right; left. split; [lia|]. exists p. auto 10.
  - exfalso. unfold cross3 in X. lra.
  - right; right; left. split; [done|]. exists r. replace (S (S i - 2)) with (S k) in H4 by lia. auto 10.
  - right; right; right. split; [lia|]. exists p, q, r. replace (S (S i - 2)) with (S (S (i - 2))) in H4 by lia. auto 10.
Qed.
Lemma ss_old j z B : cw ls j z B -> (S j <> k)%nat -> cw ls' (if decide (j < k)%nat then j else j + 2)%nat z B.
Proof.
  intros (p & q & r & Hp & Hq & Hr & X & Hz & Op & Oq & Or) Hj. exists p, q, r. rewrite !s_look.
  destruct (decide (j < k)%nat) as [L|L].
  - rewrite !decide_True by lia. auto 10.
  - rewrite !decide_False by lia.
    replace (j + 2 - 2)%nat with j by lia. replace (S (j + 2) - 2)%nat with (S j) by lia. replace (S (S (j + 2)) - 2)%nat with (S (S j)) by lia. auto 10.
Qed.
(* no arc vanishes exactly at the new site *)
Lemma ss_none j z : cw ls j z l -> fst z <> fst n.
Proof.
  intros Hc. destruct (HQ1 j z l Hc) as [(i & Hi & Hi')|(p & Hp & Op)]; [by apply (HF i)|].
  pose proof (cw_empty l H ls j z BO Hc p Hp). lra.
Qed.

Theorem site_Q1 : Q1 (H ++ [n]) ls' pend'.
Proof.
  intros i z B Hc.
  assert (OLD : forall o, (S o <> k)%nat -> cw ls o z B -> (exists j, pend' j /\ cw ls' j z B) \/ exists p, p ∈ H ++ [n] /\ out p B z < 0).
  { intros o Ho Hc'. destruct (HQ1 o z B Hc') as [(j & Hj & Hj')|(p & Hp & Op)].
    - destruct (decide (S j = k)) as [Ej|Ej].
      + pose proof (cw_below l H ls j z B BO Hj') as Bl.
        destruct (Req_dec B l) as [->|Hne].
        * exfalso. apply (HF j z Hj Hj'). destruct Hj' as (p & q & r & Hp & Hq & Hr & X & Hz & Op & Oq & Or).
          destruct (meet_now l H ls j p q r z BO Hp Hq Hr X Hz Op Oq Or) as [E1 E2].
          pose proof (edge_x _ _ _ _ (b_pair_ok _ _ _ _ _ _ BO Hp Hq) E1). pose proof (edge_x _ _ _ _ (b_pair_ok _ _ _ _ _ _ BO Hq Hr) E2).
          rewrite Ej in Hq, Hr. assert (q = a) as -> by (rewrite s_mid in Hq; congruence). pose proof HU as (_ & UL & UR).
          specialize (UL j p (eq_sym Ej) Hp). specialize (UR r Hr). lra.
        * right. exists n. split; [apply elem_of_app; right; by apply elem_of_list_singleton|].
          destruct Hj' as (p & q & r & Hp & Hq & Hr & X & Hz & Op & Oq & Or). pose proof Hq as Hq'. rewrite Ej in Hq'. assert (q = a) as -> by (rewrite s_mid in Hq'; congruence).
          pose proof HU as HU'. rewrite <- Ej in HU'. apply (site_inside l H ls j p a r z B n); auto. lra.
      + left. eexists. split; [by apply HK|]. by apply ss_old.
    - right. exists p. split; [apply elem_of_app; by left|done]. }
  destruct (ss_tri i z B Hc) as [(I & Hc')|[(I & _)|[(I & _)|(I & Hc')]]].
  - apply (OLD i); [lia|done].
  - left. exists i. split; [by eapply HL|done].
  - subst i. destruct (HR z B Hc) as [HP|(i & z' & Ei & HP & Hi & Ex)]; [left; eauto|]. left. exists i. split; [done|].
    replace z with z'; [done|]. destruct (ss_tri i z' B Hi) as [(I & _)|[(_ & p & _ & _ & _ & _ & Oa & _)|[(I & _)|(I & _)]]]; try lia.
    destruct (ss_tri (S k) z B Hc) as [(I & _)|[(I & _)|[(_ & e & _ & _ & _ & _ & Oa' & _)|(I & _)]]]; try lia.
    apply (same_circle a z' z B); auto. pose proof (cw_below _ _ _ _ _ _ BO' Hc). lra.
  - apply (OLD (i - 2)%nat); [lia|done].
Qed.

Theorem site_Q2 : Q2 (H ++ [n]) ls'.
Proof.
  intros i j z B Hi Hj HB. pose proof (cw_below _ _ _ _ _ _ BO' Hi) as Bl.
  assert (NEWB : forall t, t ∈ H -> t = (fst z, B) -> out n B z = 0 -> False).
  { intros t Ht -> On. pose proof (b_above _ _ _ BO _ Ht) as L. cbn [snd] in L. assert (B = l) by lra. subst B. apply bottom_point in On; [|done]. apply Hn. by rewrite On. }
  apply elem_of_app in HB as [HB|HB%elem_of_list_singleton].
  - assert (SN : forall t, cw ls' t z B -> ((S (S t) <= k)%nat /\ cw ls t z B) \/ ((S (S k) <= t)%nat /\ cw ls (t - 2)%nat z B)).
    { intros t Ht. destruct (ss_tri t z B Ht) as [?|[(_ & p & _ & _ & _ & _ & _ & On)|[(_ & e & _ & _ & _ & On & _)|?]]]; auto; exfalso; by eapply NEWB. }
    destruct (SN i Hi) as [[I1 C1]|[I1 C1]], (SN j Hj) as [[I2 C2]|[I2 C2]]; pose proof (HQ2 _ _ z B C1 C2 HB); lia.
  - assert (Ex : fst z = fst n) by (by rewrite <- HB). assert (EB : B = l) by (by rewrite <- En, <- HB). subst B.
    assert (NO : forall t, cw ls t z l -> False) by (intros t Ht; by apply (ss_none t z Ht)).
    assert (LR : forall i j, S i = k -> j = S k -> cw ls' i z l -> cw ls' j z l -> False).
    { clear i j Hi Hj. intros i j Ei -> Hi Hj.
      destruct (ss_tri i z l Hi) as [(I & _)|[(_ & p & Hp & X1 & Hz & Op & Oa & On)|[(I & _)|(I & _)]]]; try lia.
      destruct (ss_tri (S k) z l Hj) as [(I & _)|[(I & _)|[(_ & e & He & X2 & _ & _ & _ & Oe)|(I & _)]]]; try lia.
      assert (Ha : ls !! S i = Some a) by (rewrite Ei; apply s_mid). rewrite <- Ei in He.
      pose proof (b_pair_ok _ _ _ _ _ _ BO Hp Ha) as (Lp & _ & _ & N1 & _). pose proof (b_pair_ok _ _ _ _ _ _ BO Ha He) as (_ & Le & _ & N2 & _).
      assert (Ez : n = (fst z, l)) by (rewrite Ex; destruct n; cbn [fst snd] in *; congruence).
      apply (NO i). exists p, a, e. split; [done|]. split; [done|]. split; [done|]. split; [|auto 10].
      apply (meet_clockwise p a e l z); auto.
      - split; [done|]. split; [done|]. split; [done|]. rewrite <- Ez. lra.
      - split; [done|]. split; [done|]. split; [done|]. rewrite <- Ez. replace (cross3 a e n) with (cross3 n a e) by (unfold cross3; ring). lra.
      - intros [Ep _]. apply bottom_point in Op; [|done]. apply Hn. rewrite Ez, <- Op. by eapply (b_sub _ _ _ BO). }
    destruct (ss_tri i z l Hi) as [(_ & C1)|[(I1 & _)|[(I1 & _)|(_ & C1)]]]; [by apply NO in C1| | |by apply NO in C1];
    destruct (ss_tri j z l Hj) as [(_ & C2)|[(I2 & _)|[(I2 & _)|(_ & C2)]]]; try (by apply NO in C2); try lia.
    + exfalso. by apply (LR i j).
    + exfalso. by apply (LR j i).
Qed.
End SiteStep.

(* ---------- a circle event ---------- *)
Section CircleStep.
Context (l : R) (H ls1 ls2 : list rpt) (a b c z : rpt) (pend pend' : nat -> Prop).
Notation ls := (ls1 ++ a :: b :: c :: ls2).
Notation ls' := (ls1 ++ a :: c :: ls2).
Notation k := (length ls1).
Context (BO : beach_ok l H ls) (HX : cross3 a b c < 0) (Hz : l < snd z) (Oa : out a l z = 0) (Ob : out b l z = 0) (Oc : out c l z = 0).
Context (HQ1 : Q1 H ls pend) (HQ2 : Q2 H ls).
(* events are cancelled only if their middle arc is beside the vanishing one *)
Context (HK : forall j, pend j -> (S j <> k)%nat -> j <> k -> j <> S k -> pend' (if decide (j < k)%nat then j else j - 1)%nat).
(* the two new triples *)
Context (HL : forall i z B, S i = k -> cw ls' i z B -> pend' i).
Context (HR : forall z B, cw ls' k z B -> pend' k \/ exists i z', S i = k /\ pend' i /\ cw ls' i z' B /\ fst z' = fst z).

Let BO' : beach_ok l H ls' := beach_circle l H ls1 ls2 a b c z BO HX Hz Oa Ob Oc.
Let Lb : l < snd b := c_above l H ls1 ls2 a b c z BO HX Oa Ob Oc.

Lemma cs_now : cw ls k z l.
Proof. exists a, b, c. split; [apply c_a|]. split; [apply c_b|]. split; [apply c_c|]. auto. Qed.
Lemma cs_tri i w B : cw ls' i w B -> ((S (S i) <= k)%nat /\ cw ls i w B) \/
  (S i = k /\ exists p, ls !! i = Some p /\ cross3 p a c < 0 /\ B < snd w /\ out p B w = 0 /\ out a B w = 0 /\ out c B w = 0) \/
  (i = k /\ exists e, ls !! S (S (S k)) = Some e /\ cross3 a c e < 0 /\ B < snd w /\ out a B w = 0 /\ out c B w = 0 /\ out e B w = 0) \/
  ((k < i)%nat /\ cw ls (S i) w B).
Proof.
  intros (p & q & r & Hp & Hq & Hr & X & Hw & Op & Oq & Or).
  destruct (c_adj ls1 ls2 a b c i p q Hp Hq) as [(I1 & H1 & H2)|[(I1 & -> & ->)|(I1 & H1 & H2)]];
  destruct (c_adj ls1 ls2 a b c (S i) _ r Hq Hr) as [(I2 & H3 & H4)|[(I2 & E1 & ->)|(I2 & H3 & H4)]]; try lia.
  - left. split; [lia|]. exists p, q, r. auto 10.
  - subst q. right; left. split; [lia|]. exists p. auto 10.
  - right; right; left. split; [done|]. exists r. subst i. auto 10.
  - right; right; right. split; [lia|]. exists p, q, r. auto 10.
Qed.
Lemma cs_old j w B : cw ls j w B -> (S j <> k)%nat -> j <> k -> j <> S k -> cw ls' (if decide (j < k)%nat then j else j - 1)%nat w B.
Proof.
  intros (p & q & r & Hp & Hq & Hr & X & Hw & Op & Oq & Or) J1 J2 J3. exists p, q, r. rewrite !(c_look ls1 ls2 a b c).
  destruct (decide (j < k)%nat) as [L|L].
  - rewrite !decide_True by lia. auto 10.
  - rewrite !decide_False by lia. replace (S (j - 1)) with j by lia. auto 10.
Qed.
(* the edges beside the vanishing arc, when further arcs vanish there *)
Lemma cs_left p i : S i = k -> ls !! i = Some p -> (fst z, l) ∉ H -> gi_x p a l = fst z -> cw ls' i z l.
Proof.
  intros Ei Hp HB Ex. assert (Ha : ls !! S i = Some a) by (rewrite Ei; apply c_a).
  destruct (c_edge l H ls1 ls2 a b c z BO HX Hz Oa Ob Oc) as [E PO]. pose proof PO as (La & Lc & _ & N & _).
  assert (aH : a ∈ H) by (by eapply (b_sub _ _ _ BO)). assert (La' : l < snd a).
  { destruct (Req_dec (snd a) l) as [E0|]; [|lra]. exfalso. apply HB. pose proof (bottom_point _ _ _ E0 Oa) as E9. by rewrite <- E9. }
  destruct (b_edge_at _ _ _ _ _ _ BO Hp Ha) as (w & Ew & Xw). pose proof Ew as (_ & Op & Oa' & _).
  assert (w = z) as -> by (apply (same_circle a w z l); auto; congruence).
  pose proof (b_pair_ok _ _ _ _ _ _ BO Hp Ha) as (Lp & _ & _ & N1 & _).
  exists p, a, c. rewrite !(c_look ls1 ls2 a b c). rewrite !decide_True by lia. rewrite decide_False by lia. rewrite Ei. split; [done|]. split; [apply c_a|]. split; [apply c_c|].
  split; [|auto]. apply (meet_clockwise p a c l z); auto. intros [E0 _]. apply HB. apply bottom_point in Op; [|done]. rewrite <- Op. by eapply (b_sub _ _ _ BO).
Qed.
Lemma cs_right e : ls !! S (S (S k)) = Some e -> (fst z, l) ∉ H -> gi_x c e l = fst z -> cw ls' k z l.
Proof.
  intros He HB Ex. pose proof (c_c ls1 ls2 a b c) as Hc.
  destruct (c_edge l H ls1 ls2 a b c z BO HX Hz Oa Ob Oc) as [E PO]. pose proof PO as (La & Lc & _ & N & _).
  assert (cH : c ∈ H) by (by eapply (b_sub _ _ _ BO)). assert (Lc' : l < snd c).
  { destruct (Req_dec (snd c) l) as [E0|]; [|lra]. exfalso. apply HB. pose proof (bottom_point _ _ _ E0 Oc) as E9. by rewrite <- E9. }
  destruct (b_edge_at _ _ _ _ _ _ BO Hc He) as (w & Ew & Xw). pose proof Ew as (_ & Oc' & Oe & _).
  assert (w = z) as -> by (apply (same_circle c w z l); auto; congruence).
  pose proof (b_pair_ok _ _ _ _ _ _ BO Hc He) as (_ & Le & _ & N1 & _).
  exists a, c, e. rewrite !(c_look ls1 ls2 a b c). rewrite decide_True by lia. rewrite !decide_False by lia. split; [apply c_a|]. split; [done|]. split; [done|].
  split; [|auto]. apply (meet_clockwise a c e l z); auto. intros [E0 _]. apply HB. pose proof (bottom_point _ _ _ E0 Oa) as E9. rewrite <- E9. eapply (b_sub _ _ _ BO), c_a.
Qed.
Lemma cs_put_right w B : cw ls' k w B -> exists j, pend' j /\ cw ls' j w B.
Proof.
  intros Hc. destruct (HR w B Hc) as [HP|(i & z' & Ei & HP & Hi & Ex)]; [eauto|]. exists i. split; [done|]. replace w with z'; [done|].
  destruct (cs_tri i z' B Hi) as [(I & _)|[(_ & p & _ & _ & _ & _ & Oa1 & Oc1)|[(I & _)|(I & _)]]]; try lia.
  destruct (cs_tri k w B Hc) as [(I & _)|[(I & _)|[(_ & e & _ & _ & _ & Oa2 & Oc2 & _)|(I & _)]]]; try lia.
  pose proof (cw_below _ _ _ _ _ _ BO' Hc) as Bl. destruct (c_edge l H ls1 ls2 a b c z BO HX Hz Oa Ob Oc) as [_ (_ & _ & [L|L] & _)].
  - apply (same_circle a z' w B); auto; lra.
  - apply (same_circle c z' w B); auto; lra.
Qed.

Theorem circle_Q1 : Q1 H ls' pend'.
Proof.
  intros i w B Hc.
  destruct (c_edges l H ls1 ls2 a b c z BO HX Hz Oa Ob Oc) as [E1 E2].
  pose proof (gi_ab l H ls1 ls2 a b c z BO HX Hz Oa Ob Oc) as Gab. pose proof (gi_bc l H ls1 ls2 a b c z BO HX Hz Oa Ob Oc) as Gbc.
  assert (LEFT : forall i, S i = k -> cw ls' i w B -> (exists j, pend' j /\ cw ls' j w B) \/ exists p, p ∈ H /\ out p B w < 0).
  { clear i Hc. intros i Ei Hi. left. exists i. split; [by eapply HL|done]. }
  assert (RIGHT : cw ls' k w B -> (exists j, pend' j /\ cw ls' j w B) \/ exists p, p ∈ H /\ out p B w < 0).
  { intros Hi. left. by apply cs_put_right. }
  assert (INS : forall i j q q', i <> j -> edge_at i j l z -> out q l z >= 0 -> cross3 i j q < 0 -> B < snd w -> out i B w = 0 -> out j B w = 0 -> out q B w = 0 -> B < l ->
      out q' l z = 0 -> cross3 i j q' < 0 -> out q' B w < 0).
  { clear i Hc. intros i j q q' N E D X Hw Oi Oj Oq HB O' X'. pose proof E as (Hz' & Oi' & Oj' & _).
    destruct (same_line i j z w N) as [s Es]; [unfold out in *; lra|unfold out in *; lra|].
    assert (Oi2 := Oi). assert (Oq2 := Oq). rewrite Es in Oi2, Oq2. rewrite (out_move i j q l B z s Oi' Oi2) in Oq2.
    assert (Hs : 0 <= s) by (clear - Oq2 D X; nra).
    assert (s <> 0). { intros ->. assert (w = z) as ->. { rewrite Es. destruct z. unfold move. cbn [fst snd]. f_equal; ring. }
      clear - Oi Oi' HB Hz' Hw. unfold out in *. nra. }
    rewrite Es. rewrite (out_move i j q' l B z s Oi' Oi2), O'. clear - Hs H0 X'. nra. }
  assert (OLD : forall o, (S o <> k)%nat -> o <> k -> o <> S k -> cw ls o w B -> (exists j, pend' j /\ cw ls' j w B) \/ exists p, p ∈ H /\ out p B w < 0).
  { clear i Hc. intros o O1 O2 O3 Ho. destruct (HQ1 o w B Ho) as [(j & Hj & Hj')|?]; [|by right].
    destruct (decide (j = k)) as [->|Jk].
    { (* the event that is handled now *)
      destruct (cw_unique _ _ _ _ _ _ cs_now Hj') as [<- <-].
      assert (HB : (fst z, l) ∉ H) by (intros HB; by specialize (HQ2 o k z l Ho Hj' HB)).
      destruct Ho as (p0 & q0 & r0 & Hp0 & Hq0 & Hr0 & X0 & _ & Op0 & Oq0 & Or0).
      destruct (meet_now l H ls o p0 q0 r0 z BO Hp0 Hq0 Hr0 X0 Hz Op0 Oq0 Or0) as [F1 F2].
      pose proof (edge_x _ _ _ _ (b_pair_ok _ _ _ _ _ _ BO Hp0 Hq0) F1) as G1. pose proof (edge_x _ _ _ _ (b_pair_ok _ _ _ _ _ _ BO Hq0 Hr0) F2) as G2.
      destruct (decide (o < k)%nat) as [L|L].
      - assert (exists i, S i = k) as [i Ei] by (exists (k - 1)%nat; lia).
        assert (exists p, ls !! i = Some p) as [p Hp]. { apply lookup_lt_is_Some. rewrite app_length. lia. }
        apply (LEFT i Ei). apply (cs_left p i Ei Hp HB). assert (Ha : ls !! S i = Some a) by (rewrite Ei; apply c_a).
        pose proof (b_mono' _ _ l (S o) i q0 r0 p a BO ltac:(lia) Hq0 Hr0 Hp Ha). pose proof (b_sorted _ _ _ BO i p a b Hp Ha) as G3.
        rewrite Ei in G3. specialize (G3 (c_b ls1 ls2 a b c)). lra.
      - apply RIGHT. assert (exists e, ls !! S (S (S k)) = Some e) as [e He]. { apply lookup_lt_is_Some. apply lookup_lt_Some in Hr0. lia. }
        apply (cs_right e He HB).
        pose proof (b_mono' _ _ l (S (S k)) o c e p0 q0 BO ltac:(lia) (c_c ls1 ls2 a b c) He Hp0 Hq0).
        pose proof (b_sorted _ _ _ BO (S k) b c e (c_b ls1 ls2 a b c) (c_c ls1 ls2 a b c) He). lra. }
    destruct (decide (S j = k)) as [Ej|Ej].
    { (* the event of the arc of a *)
      pose proof (cw_below _ _ _ _ _ _ BO Hj') as Bl. pose proof Hj' as (p & a' & b' & Hp & Ha & Hb & X & Hw & Op & Oa' & Ob').
      pose proof Ha as Ha2. pose proof Hb as Hb2. rewrite Ej in Ha2, Hb2. rewrite c_a in Ha2. rewrite c_b in Hb2. assert (a' = a) by congruence. assert (b' = b) by congruence. subst a' b'.
      destruct (Req_dec B l) as [->|Hne].
      - destruct (meet_now l H ls j p a b w BO Hp Ha Hb X Hw Op Oa' Ob') as [F1 F2].
        pose proof (b_pair_ok _ _ _ _ _ _ BO Ha Hb) as (_ & _ & _ & Nab & _).
        assert (w = z) as -> by (apply (edge_unique a b l); auto).
        assert (HB : (fst z, l) ∉ H) by (intros HB; specialize (HQ2 j k z l Hj' cs_now HB); lia).
        apply (LEFT j Ej). apply (cs_left p j Ej Hp HB). symmetry. apply edge_x; [exact (b_pair_ok _ _ _ _ _ _ BO Hp Ha)|done].
      - right. exists c. split; [eapply (b_sub _ _ _ BO), c_c|]. pose proof (b_pair_ok _ _ _ _ _ _ BO Ha Hb) as (_ & _ & _ & Nab & _).
        apply (INS a b p c); auto; [| |lra].
        + apply Rle_ge. apply (b_edge _ _ _ _ _ _ _ BO Ha Hb E1). by eapply (b_sub _ _ _ BO).
        + replace (cross3 a b p) with (cross3 p a b) by (unfold cross3; ring). done. }
    destruct (decide (j = S k)) as [->|Ej'].
    { (* the event of the arc of c *)
      pose proof (cw_below _ _ _ _ _ _ BO Hj') as Bl. pose proof Hj' as (b' & c' & e & Hb & Hc & He & X & Hw & Ob' & Oc' & Oe).
      pose proof Hb as Hb2. pose proof Hc as Hc2. rewrite c_b in Hb2. rewrite c_c in Hc2. assert (b' = b) by congruence. assert (c' = c) by congruence. subst b' c'.
      pose proof (b_pair_ok _ _ _ _ _ _ BO Hb Hc) as (_ & _ & _ & Nbc & _).
      destruct (Req_dec B l) as [->|Hne].
      - destruct (meet_now l H ls (S k) b c e w BO Hb Hc He X Hw Ob' Oc' Oe) as [F1 F2].
        assert (w = z) as -> by (apply (edge_unique b c l); auto).
        assert (HB : (fst z, l) ∉ H) by (intros HB; specialize (HQ2 (S k) k z l Hj' cs_now HB); lia).
        apply RIGHT. apply (cs_right e He HB). symmetry. apply edge_x; [exact (b_pair_ok _ _ _ _ _ _ BO Hc He)|done].
      - right. exists a. split; [eapply (b_sub _ _ _ BO), c_a|].
        apply (INS b c e a); auto; [| lra|].
        + apply Rle_ge. apply (b_edge _ _ _ _ _ _ _ BO Hb Hc E2). by eapply (b_sub _ _ _ BO).
        + replace (cross3 b c a) with (cross3 a b c) by (unfold cross3; ring). done. }
    left. eexists. split; [by apply HK|]. by apply cs_old. }
  destruct (cs_tri i w B Hc) as [(I & Hc')|[(I & _)|[(I & _)|(I & Hc')]]].
  - apply (OLD i); auto; lia.
  - by apply (LEFT i).
  - subst i. by apply RIGHT.
  - apply (OLD (S i)); auto; lia.
Qed.

Theorem circle_Q2 : Q2 H ls'.
Proof.
  intros i j w B Hi Hj HB. pose proof (cw_below _ _ _ _ _ _ BO' Hi) as Bl. pose proof (b_above _ _ _ BO _ HB) as Bl'. cbn [snd] in Bl'.
  assert (B = l) by lra. subst B. clear Bl Bl'.
  destruct (c_edges l H ls1 ls2 a b c z BO HX Hz Oa Ob Oc) as [E1 E2]. destruct (c_edge l H ls1 ls2 a b c z BO HX Hz Oa Ob Oc) as [E3 (La & Lc & Lac & Nac & _)].
  (* a new triple has the circle of the event *)
  assert (NEW : forall t, (S t = k \/ t = k) -> cw ls' t w l -> w = z).
  { intros t Ht Hc. pose proof Hc as (p & q & r & Hp & Hq & Hr & X & Hw & Op & Oq & Or).
    destruct (meet_now l H ls' t p q r w BO' Hp Hq Hr X Hw Op Oq Or) as [F1 F2]. rewrite (c_look ls1 ls2 a b c) in Hp, Hq, Hr.
    apply (edge_unique a c l z w Nac E3). destruct Ht as [Et| ->].
    - rewrite decide_True in Hq by lia. rewrite decide_False in Hr by lia. rewrite Et in Hq, Hr. rewrite c_a in Hq. rewrite c_c in Hr. assert (q = a) by congruence. assert (r = c) by congruence. by subst q r.
    - rewrite decide_True in Hp by lia. rewrite decide_False in Hq by lia. rewrite c_a in Hp. rewrite c_c in Hq. assert (p = a) by congruence. assert (q = c) by congruence. by subst p q. }
  assert (ONE : forall t, w = z -> cw ls t w l -> t = k). { intros t -> Ht. exact (HQ2 t k z l Ht cs_now HB). }
  assert (BOTH : forall i j, S i = k -> j = k -> cw ls' i w l -> cw ls' j w l -> False).
  { clear i j Hi Hj. intros i j Ei -> Hi Hj. pose proof (NEW i (or_introl Ei) Hi) as Ew.
    destruct (cs_tri i w l Hi) as [(I & _)|[(_ & p & Hp & X1 & Hw & Op & _)|[(I & _)|(I & _)]]]; try lia.
    destruct (cs_tri k w l Hj) as [(I & _)|[(I & _)|[(_ & e & He & X2 & _ & _ & _ & Oe)|(I & _)]]]; try lia. subst w.
    assert (Ha : ls !! S i = Some a) by (rewrite Ei; apply c_a). assert (Hb : ls !! S (S i) = Some b) by (rewrite Ei; apply c_b).
    pose proof (c_b ls1 ls2 a b c) as Hb'. pose proof (c_c ls1 ls2 a b c) as Hc'.
    pose proof (b_pair_ok _ _ _ _ _ _ BO Ha Hb) as (_ & _ & _ & Nab & _). pose proof (b_pair_ok _ _ _ _ _ _ BO Hb' Hc') as (_ & _ & _ & Nbc & _).
    pose proof (b_pair_ok _ _ _ _ _ _ BO Hp Ha) as (Lp & _ & _ & Npa & _). pose proof (b_pair_ok _ _ _ _ _ _ BO Hc' He) as (_ & Le & _ & Nce & _).
    assert (F : edge_at p a l z /\ edge_at c e l z).
    { split.
      - apply (meet_now l H ls' i p a c z BO'); auto; rewrite (c_look ls1 ls2 a b c); [rewrite decide_True by lia; done|rewrite decide_True by lia; done|rewrite decide_False by lia; rewrite Ei; apply c_c].
      - apply (meet_now l H ls' k a c e z BO'); auto; rewrite (c_look ls1 ls2 a b c); [rewrite decide_True by lia; apply c_a|rewrite decide_False by lia; done|rewrite decide_False by lia; done]. }
    destruct F as [F1 F2].
    destruct (Req_dec (snd a) l) as [Ea|Ea].
    - assert (S k = k); [|lia]. apply (ONE (S k) eq_refl). exists b, c, e. split; [done|]. split; [done|]. split; [done|]. split; [|auto 10].
      apply (meet_clockwise b c e l z); auto; lra.
    - assert (i = k); [|lia]. apply (ONE i eq_refl). exists p, a, b. split; [done|]. split; [done|]. split; [done|]. split; [|auto 10].
      apply (meet_clockwise p a b l z); auto; lra. }
  assert (NN : forall t, cw ls' t w l -> ((S (S t) <= k)%nat /\ cw ls t w l) \/ ((S t = k \/ t = k) /\ w = z) \/ ((k < t)%nat /\ cw ls (S t) w l)).
  { intros t Ht. destruct (cs_tri t w l Ht) as [?|[(I & _)|[(I & _)|?]]]; auto; right; left; (split; [by auto|]); apply (NEW t); auto. }
  destruct (NN i Hi) as [[I1 C1]|[[I1 W1]|[I1 C1]]], (NN j Hj) as [[I2 C2]|[[I2 W2]|[I2 C2]]];
    try (pose proof (HQ2 _ _ w l C1 C2 HB); lia); try (pose proof (ONE _ W1 C2); lia); try (pose proof (ONE _ W2 C1); lia).
  destruct I1 as [I1|I1], I2 as [I2|I2]; try lia; exfalso; [by apply (BOTH i j)|by apply (BOTH j i)].
Qed.
End CircleStep.
