(* TreeOps.v -- rebalancing, replacing, neighbours and searches, on the represented tree. *)
From stdpp Require Import base list sets.
From Coq Require Import ZArith Lia.
From Verif Require Import Arith Monad Tree TreeProofs.
Local Open Scope monad_scope.

Section Ops.
Context {X : Type}.
Notation heap := (list (node X)).
Implicit Types h : heap.

Lemma NoDup_perm (l k : list nat) : l ≡ₚ k -> NoDup k -> NoDup l.
Proof. intros ->. done. Qed.

Lemma left_heavy_spec h p l n r test : rep h p (T l n r) -> NoDup (inord (T l n r)) ->
  exists h' res, left_heavy n test h = Val (h', res) /\ hsim h h' /\ (Hok h -> Hok h') /\
    (res = true -> exists la m lb, l = T la m lb /\ (Hok h -> forall k, l <> leaf k) /\
       exists bl, test bl = true /\
         ((bl < 0)%Z -> lb <> E /\ (Hok h -> la <> E -> forall k, lb <> leaf k))).
Proof.
  intros Hrep Hnd. unfold left_heavy.
  destruct (balance_of_spec h p l n r Hrep Hnd) as (h1 & b & E1 & S1 & O1 & P1 & P2 & P3 & P4 & P5 & P6).
  erewrite bind_val by eauto.
  destruct (Z.ltb_spec 1 b) as [Hb|Hb].
  2:{ exists h1, false. split; [done|]. split_and!; auto. done. }
  pose proof (rep_hsim _ _ _ _ S1 Hrep) as R1.
  destruct R1 as ((x & Hx & Hp & Hl & Hr) & Rl & Rr).
  erewrite bind_val by (apply get_val; eauto).
  destruct l as [|la m lb]; [exfalso; apply P1; auto; lia|].
  rewrite Hl. erewrite bind_val by apply need_val.
  apply NoDup_T in Hnd as (Nl & _).
  destruct (balance_of_spec h1 (Some n) la m lb Rl Nl) as (h2 & bl & E2 & S2 & O2 & Q1 & Q2 & Q3 & Q4 & Q5 & Q6).
  erewrite bind_val by eauto.
  exists h2, (test bl). split; [done|]. split; [eapply hsim_trans; eauto|]. split; [auto|].
  intros Ht. exists la, m, lb. split; [done|]. split; [auto|].
  exists bl. split; auto.
Qed.

Lemma right_heavy_spec h p l n r test : rep h p (T l n r) -> NoDup (inord (T l n r)) ->
  exists h' res, right_heavy n test h = Val (h', res) /\ hsim h h' /\ (Hok h -> Hok h') /\
    (res = true -> exists ra m rb, r = T ra m rb /\ (Hok h -> forall k, r <> leaf k) /\
       exists br, test br = true /\
         ((0 < br)%Z -> ra <> E /\ (Hok h -> rb <> E -> forall k, ra <> leaf k))).
Proof.
  intros Hrep Hnd. unfold right_heavy.
  destruct (balance_of_spec h p l n r Hrep Hnd) as (h1 & b & E1 & S1 & O1 & P1 & P2 & P3 & P4 & P5 & P6).
  erewrite bind_val by eauto.
  destruct (Z.ltb_spec b (-1)) as [Hb|Hb].
  2:{ exists h1, false. split; [done|]. split_and!; auto. done. }
  pose proof (rep_hsim _ _ _ _ S1 Hrep) as R1.
  destruct R1 as ((x & Hx & Hp & Hl & Hr) & Rl & Rr).
  erewrite bind_val by (apply get_val; eauto).
  destruct r as [|ra m rb]; [exfalso; apply P2; auto; lia|].
  rewrite Hr. erewrite bind_val by apply need_val.
  apply NoDup_T in Hnd as (_ & Nr & _).
  destruct (balance_of_spec h1 (Some n) ra m rb Rr Nr) as (h2 & br & E2 & S2 & O2 & Q1 & Q2 & Q3 & Q4 & Q5 & Q6).
  erewrite bind_val by eauto.
  exists h2, (test br). split; [done|]. split; [eapply hsim_trans; eauto|]. split; [auto|].
  intros Ht. exists ra, m, rb. split; [done|]. split; [auto|].
  exists br. split; auto.
Qed.

Lemma full_T_nonleaf l n r : full (T l n r) -> (forall k, T l n r <> leaf k) -> full l /\ full r.
Proof. simpl. intros [[-> ->]|?] HH; [|done]. exfalso. by apply (HH n). Qed.

Lemma full_T l n r : full l -> full r -> full (T l n r).
Proof. simpl. auto. Qed.

Lemma balance_spec h C l n r :
  rep_ctx h C (Some n) -> rep h (ctx_parent C) (T l n r) -> NoDup (ctx_ids C ++ inord (T l n r)) ->
  exists h' m t', balance n h = Val (h', m) /\ rootid t' = Some m /\ inord t' = inord (T l n r) /\
    rep_ctx h' C (Some m) /\ rep h' (ctx_parent C) t' /\ same_data h h' /\
    (Hok h -> full (T l n r) -> full t' /\ Hok h').
Proof.
  intros Rc R Hnd. pose proof (NoDup_app_inv _ _ Hnd) as (NC & NT & ND). unfold balance.
  destruct (left_heavy_spec h _ l n r (fun b => (0 <=? b)%Z) R NT) as (h1 & c1 & E1 & S1 & O1 & P1).
  erewrite bind_val by eauto.
  pose proof (rep_hsim _ _ _ _ S1 R) as R1. pose proof (rep_ctx_hsim _ _ _ _ S1 Rc) as Rc1.
  destruct c1; cbv iota.
  { destruct (P1 eq_refl) as (la & m & lb & -> & HL & _).
    destruct (rotate_right_spec h1 C la n lb m r Rc1 R1 Hnd) as (h2 & E2 & Rc2 & R2 & D2 & O2).
    exists h2, m, (T la m (T lb n r)). split; [done|]. split; [done|].
    split; [simpl; rewrite <- !app_assoc; done|]. split_and!; auto.
    { eapply same_data_trans; [apply hsim_same_data; exact S1|done]. }
    intros HH [[? ?]|[Fl Fr]]; [done|]. destruct (full_T_nonleaf _ _ _ Fl (HL HH)).
    split; [auto using full_T|]. apply O2; auto. by apply full_nonempty. }
  destruct (right_heavy_spec h1 _ l n r (fun b => (b <=? 0)%Z) R1 NT) as (h2 & c2 & E2 & S2 & O2 & P2).
  erewrite bind_val by eauto.
  pose proof (rep_hsim _ _ _ _ S2 R1) as R2. pose proof (rep_ctx_hsim _ _ _ _ S2 Rc1) as Rc2.
  destruct c2; cbv iota.
  { destruct (P2 eq_refl) as (ra & m & rb & -> & HL & _).
    destruct (rotate_left_spec h2 C l n ra m rb Rc2 R2 Hnd) as (h3 & E3 & Rc3 & R3 & D3 & O3).
    exists h3, m, (T (T l n ra) m rb). split; [done|]. split; [done|].
    split; [simpl; rewrite <- !app_assoc; done|]. split_and!; auto.
    { eapply same_data_trans; [apply hsim_same_data; eapply hsim_trans; [exact S1|exact S2]|done]. }
    intros HH [[? ?]|[Fl Fr]]; [done|]. destruct (full_T_nonleaf _ _ _ Fr (HL (O1 HH))).
    split; [auto using full_T|]. apply O3; auto. by apply full_nonempty. }
  destruct (left_heavy_spec h2 _ l n r (fun b => (b <? 0)%Z) R2 NT) as (h3 & c3 & E3 & S3 & O3 & P3).
  erewrite bind_val by eauto.
  pose proof (rep_hsim _ _ _ _ S3 R2) as R3. pose proof (rep_ctx_hsim _ _ _ _ S3 Rc2) as Rc3.
  pose proof (hsim_trans _ _ _ S1 S2) as S12. pose proof (hsim_trans _ _ _ S12 S3) as S13.
  destruct c3; cbv iota.
  { destruct (P3 eq_refl) as (la & m & lb & -> & HL & bl & Hbl & Hlb).
    apply Z.ltb_lt in Hbl. destruct (Hlb Hbl) as [Hlb0 Hlb1].
    destruct lb as [|lba q lbb]; [done|].
    pose proof R3 as ((x & Hx & Hp & Hl & Hr) & Rl & Rr).
    erewrite bind_val by (apply get_val; eauto). rewrite Hl. cbn [rootid].
    erewrite bind_val by apply need_val.
    assert (RcL : rep_ctx h3 (CL C n r) (Some m)) by (simpl; eauto 10).
    assert (NL : NoDup (ctx_ids (CL C n r) ++ inord (T la m (T lba q lbb)))).
    { eapply NoDup_perm; [|exact Hnd]. simpl. solve_Permutation. }
    destruct (rotate_left_spec h3 (CL C n r) la m lba q lbb RcL Rl NL) as (h4 & E4 & Rc4 & R4 & D4 & O4).
    erewrite bind_val by eauto.
    simpl in Rc4. destruct Rc4 as ((x4 & Hx4 & Hp4 & Hl4 & Hr4) & Rr4 & Rc4).
    assert (Es : set_left n (Some q) h4 = Val (h4, tt)).
    { pose proof R4 as ((xq & Hq & Hpq & _) & _). simpl in Hpq.
      erewrite (set_left_val h4 n x4 (Some q) q); eauto.
      2:{ intros ->. simpl in NL. apply NoDup_cons in NL as [NL _]. clear - NL. set_solver. }
      f_equal. f_equal. rewrite (list_insert_id h4 q). 2:{ rewrite Hq. f_equal. destruct xq; simpl in *; by subst. }
      rewrite list_insert_id; auto. rewrite Hx4. f_equal. destruct x4; simpl in *; by subst. }
    erewrite bind_val by exact Es.
    assert (R5 : rep h4 (ctx_parent C) (T (T (T la m lba) q lbb) n r)).
    { split; [|split; [exact R4|exact Rr4]]. exists x4. simpl. auto. }
    assert (N5 : NoDup (ctx_ids C ++ inord (T (T (T la m lba) q lbb) n r))).
    { eapply NoDup_perm; [|exact Hnd]. simpl. solve_Permutation. }
    destruct (rotate_right_spec h4 C _ n lbb q r Rc4 R5 N5) as (h5 & E5 & Rc5 & R5' & D5 & O5).
    exists h5, q, (T (T la m lba) q (T lbb n r)). split; [done|]. split; [done|].
    split. { simpl. rewrite <- !app_assoc. simpl. rewrite <- !app_assoc. done. }
    split_and!; auto.
    { eapply same_data_trans; [apply hsim_same_data; exact S13|]. eapply same_data_trans; eauto. }
    intros HH [[? ?]|[Fl Fr]]; [done|].
    destruct (full_T_nonleaf _ _ _ Fl (HL (O2 (O1 HH)))) as [Fla Flb].
    destruct (full_T_nonleaf _ _ _ Flb (Hlb1 (O2 (O1 HH)) (full_nonempty _ Fla))) as [F1 F2].
    split; [auto using full_T|]. apply O5; [|by apply full_nonempty]. apply O4; auto. by apply full_nonempty. }
  destruct (right_heavy_spec h3 _ l n r (fun b => (0 <? b)%Z) R3 NT) as (h4 & c4 & E4 & S4 & O4 & P4).
  erewrite bind_val by eauto.
  pose proof (rep_hsim _ _ _ _ S4 R3) as R4. pose proof (rep_ctx_hsim _ _ _ _ S4 Rc3) as Rc4.
  pose proof (hsim_trans _ _ _ S13 S4) as S14.
  destruct c4; cbv iota.
  { destruct (P4 eq_refl) as (ra & m & rb & -> & HL & br & Hbr & Hra).
    apply Z.ltb_lt in Hbr. destruct (Hra Hbr) as [Hra0 Hra1].
    destruct ra as [|raa q rab]; [done|].
    pose proof R4 as ((x & Hx & Hp & Hl & Hr) & Rl & Rr).
    erewrite bind_val by (apply get_val; eauto). rewrite Hr. cbn [rootid].
    erewrite bind_val by apply need_val.
    assert (RcR : rep_ctx h4 (CR l n C) (Some m)) by (simpl; eauto 10).
    assert (NL : NoDup (ctx_ids (CR l n C) ++ inord (T (T raa q rab) m rb))).
    { eapply NoDup_perm; [|exact Hnd]. simpl. solve_Permutation. }
    destruct (rotate_right_spec h4 (CR l n C) raa m rab q rb RcR Rr NL) as (h5 & E5 & Rc5 & R5 & D5 & O5).
    erewrite bind_val by eauto.
    simpl in Rc5. destruct Rc5 as ((x5 & Hx5 & Hp5 & Hl5 & Hr5) & Rl5 & Rc5).
    assert (Es : set_right n (Some q) h5 = Val (h5, tt)).
    { pose proof R5 as ((xq & Hq & Hpq & _) & _). simpl in Hpq.
      erewrite (set_right_val h5 n x5 (Some q) q); eauto.
      2:{ intros ->. simpl in NL. apply NoDup_cons in NL as [NL _]. clear - NL. set_solver. }
      f_equal. f_equal. rewrite (list_insert_id h5 q). 2:{ rewrite Hq. f_equal. destruct xq; simpl in *; by subst. }
      rewrite list_insert_id; auto. rewrite Hx5. f_equal. destruct x5; simpl in *; by subst. }
    erewrite bind_val by exact Es.
    assert (R6 : rep h5 (ctx_parent C) (T l n (T raa q (T rab m rb)))).
    { split; [|split; [exact Rl5|exact R5]]. exists x5. simpl. auto. }
    assert (N6 : NoDup (ctx_ids C ++ inord (T l n (T raa q (T rab m rb))))).
    { eapply NoDup_perm; [|exact Hnd]. simpl. solve_Permutation. }
    destruct (rotate_left_spec h5 C l n raa q _ Rc5 R6 N6) as (h6 & E6 & Rc6 & R6' & D6 & O6).
    exists h6, q, (T (T l n raa) q (T rab m rb)). split; [done|]. split; [done|].
    split. { simpl. rewrite <- !app_assoc. simpl. rewrite <- ?app_assoc. done. }
    split_and!; auto.
    { eapply same_data_trans; [apply hsim_same_data; exact S14|]. eapply same_data_trans; eauto. }
    intros HH [[? ?]|[Fl Fr]]; [done|].
    destruct (full_T_nonleaf _ _ _ Fr (HL (O3 (O2 (O1 HH))))) as [Fra Frb].
    destruct (full_T_nonleaf _ _ _ Fra (Hra1 (O3 (O2 (O1 HH))) (full_nonempty _ Frb))) as [F1 F2].
    split; [auto using full_T|]. apply O6; [|by apply full_nonempty]. apply O5; auto. by apply full_nonempty. }
  exists h4, n, (T l n r). split; [done|]. split; [done|]. split; [done|].
  split; [auto|]. split; [auto|]. split; [by apply hsim_same_data|]. auto 10.
Qed.

Lemma balance_and_propagate_fuel_spec fuel h C t n :
  rep_ctx h C (Some n) -> rep h (ctx_parent C) t -> rootid t = Some n -> NoDup (ctx_ids C ++ inord t) ->
  ctx_depth C < fuel ->
  exists h' m t', balance_and_propagate_fuel fuel n h = Val (h', m) /\ rootid t' = Some m /\
    inord t' = inord (plug C t) /\ rep h' None t' /\ same_data h h' /\
    (Hok h -> full (plug C t) -> full t' /\ Hok h').
Proof.
  revert h C t n. induction fuel as [|fuel IH]; intros h C t n Rc R Hroot Hnd Hf; [lia|].
  destruct t as [|l n' r]; [done|]. simpl in Hroot. injection Hroot as ->.
  destruct (balance_spec h C l n r Rc R Hnd) as (h1 & m & t1 & E1 & Hr1 & I1 & Rc1 & R1 & D1 & O1).
  cbn [balance_and_propagate_fuel]. erewrite bind_val by eauto.
  assert (Hx : exists x, h1 !! m = Some x /\ n_parent x = ctx_parent C).
  { destruct t1; [done|]. simpl in Hr1. injection Hr1 as ->. destruct R1 as ((x & Hx & Hp & _) & _). eauto. }
  destruct Hx as (x & Hx & Hp).
  erewrite bind_val by (apply get_val; eauto). rewrite Hp.
  assert (Hne : T l n r <> E) by done.
  destruct C as [|C p q|q p C]; cbn [ctx_parent].
  - exists h1, m, t1. split; [done|]. simpl. split_and!; auto.
  - assert (Rp : rep h1 (ctx_parent C) (T t1 p q)).
    { destruct Rc1 as ((y & Hy & ?) & Rq & _). split; [|auto]. exists y. rewrite Hr1. tauto. }
    assert (RcC : rep_ctx h1 C (Some p)) by apply Rc1.
    assert (ND' : NoDup (ctx_ids C ++ inord (T t1 p q))).
    { cbn [inord]. rewrite I1. eapply NoDup_perm; [|exact Hnd]. simpl. solve_Permutation. }
    destruct (IH h1 C (T t1 p q) p RcC Rp eq_refl ND') as (h2 & m2 & t2 & E2 & Hr2 & I2 & R2 & D2 & O2).
    { simpl in Hf. lia. }
    exists h2, m2, t2. split; [done|]. split; [done|]. split.
    { rewrite I2. simpl plug. rewrite !inord_plug. cbn [inord]. rewrite I1. done. }
    split; [done|]. split; [eapply same_data_trans; eauto|].
    intros HH HF. destruct (full_plug_inv _ _ HF Hne) as [[Fq FC] Ft].
    destruct (O1 HH Ft) as [Ft1 HH1]. apply O2; auto. apply full_plug; auto. simpl. auto.
  - assert (Rp : rep h1 (ctx_parent C) (T q p t1)).
    { destruct Rc1 as ((y & Hy & ?) & Rq & _). split; [|auto]. exists y. rewrite Hr1. tauto. }
    assert (RcC : rep_ctx h1 C (Some p)) by apply Rc1.
    assert (ND' : NoDup (ctx_ids C ++ inord (T q p t1))).
    { cbn [inord]. rewrite I1. eapply NoDup_perm; [|exact Hnd]. simpl. solve_Permutation. }
    destruct (IH h1 C (T q p t1) p RcC Rp eq_refl ND') as (h2 & m2 & t2 & E2 & Hr2 & I2 & R2 & D2 & O2).
    { simpl in Hf. lia. }
    exists h2, m2, t2. split; [done|]. split; [done|]. split.
    { rewrite I2. simpl plug. rewrite !inord_plug. cbn [inord]. rewrite I1. done. }
    split; [done|]. split; [eapply same_data_trans; eauto|].
    intros HH HF. destruct (full_plug_inv _ _ HF Hne) as [[Fq FC] Ft].
    destruct (O1 HH Ft) as [Ft1 HH1]. apply O2; auto. apply full_plug; auto. simpl. auto.
Qed.

Lemma balance_and_propagate_spec h C t n :
  rep h None (plug C t) -> rootid t = Some n -> NoDup (inord (plug C t)) ->
  exists h' m t', balance_and_propagate n h = Val (h', m) /\ rootid t' = Some m /\
    inord t' = inord (plug C t) /\ rep h' None t' /\ same_data h h' /\
    (Hok h -> full (plug C t) -> full t' /\ Hok h').
Proof.
  intros R Hr Hnd. apply rep_plug in R as [Rc R]. rewrite Hr in Rc.
  assert (ND : NoDup (ctx_ids C ++ inord t)) by (eapply NoDup_perm; [|exact Hnd]; symmetry; apply plug_ids).
  apply balance_and_propagate_fuel_spec; auto.
  apply NoDup_app_inv in ND as (N1 & _). pose proof (rep_ctx_depth _ _ _ Rc N1). lia.
Qed.

(* ---------- update_heights ---------- *)
Lemma update_heights_fuel_spec fuel h C t n :
  rep_ctx h C (Some n) -> rep h (ctx_parent C) t -> rootid t = Some n -> NoDup (ctx_ids C ++ inord t) ->
  ctx_depth C < fuel ->
  exists h', update_heights_fuel fuel n h = Val (h', tt) /\ hsim h h' /\ (Hok h -> Hok h').
Proof.
  revert h C t n. induction fuel as [|fuel IH]; intros h C t n Rc R Hroot Hnd Hf; [lia|].
  destruct t as [|l n' r]; [done|]. simpl in Hroot. injection Hroot as ->.
  pose proof (NoDup_app_inv _ _ Hnd) as (NC & NT & ND).
  destruct (update_height_spec h _ l n r R NT) as (h1 & E1 & S1 & O1).
  cbn [update_heights_fuel]. erewrite bind_val by eauto.
  pose proof (rep_hsim _ _ _ _ S1 R) as R1. pose proof (rep_ctx_hsim _ _ _ _ S1 Rc) as Rc1.
  destruct R1 as ((x & Hx & Hp & Hl & Hr) & Rl & Rr).
  erewrite bind_val by (apply get_val; eauto). rewrite Hp.
  destruct C as [|C p q|q p C]; cbn [ctx_parent].
  - exists h1. done.
  - assert (Rp : rep h1 (ctx_parent C) (T (T l n r) p q)).
    { destruct Rc1 as ((y & Hy & ?) & Rq & _). split; [|split; [split; [|split]|]]; eauto. }
    destruct (IH h1 C (T (T l n r) p q) p) as (h2 & E2 & S2 & O2); auto; try apply Rc1.
    { eapply NoDup_perm; [|exact Hnd]. simpl. solve_Permutation. }
    { simpl in Hf. lia. }
    exists h2. split; [done|]. split; [eapply hsim_trans; eauto|auto].
  - assert (Rp : rep h1 (ctx_parent C) (T q p (T l n r))).
    { destruct Rc1 as ((y & Hy & ?) & Rq & _). split; [|split; [|split; [|split]]]; eauto. }
    destruct (IH h1 C (T q p (T l n r)) p) as (h2 & E2 & S2 & O2); auto; try apply Rc1.
    { eapply NoDup_perm; [|exact Hnd]. simpl. solve_Permutation. }
    { simpl in Hf. lia. }
    exists h2. split; [done|]. split; [eapply hsim_trans; eauto|auto].
Qed.
Lemma update_heights_spec h C t n :
  rep h None (plug C t) -> rootid t = Some n -> NoDup (inord (plug C t)) ->
  exists h', update_heights n h = Val (h', tt) /\ hsim h h' /\ (Hok h -> Hok h').
Proof.
  intros R Hr Hnd. apply rep_plug in R as [Rc R]. rewrite Hr in Rc.
  assert (ND : NoDup (ctx_ids C ++ inord t)) by (eapply NoDup_perm; [|exact Hnd]; symmetry; apply plug_ids).
  apply (update_heights_fuel_spec _ h C t n); auto.
  apply NoDup_app_inv in ND as (N1 & _). pose proof (rep_ctx_depth _ _ _ Rc N1). lia.
Qed.

(* ---------- replace_leaf ---------- *)
(* [self] at the hole of C is replaced by the tree u (from elsewhere in the store, or a
   subtree of self) *)
Lemma replace_leaf_spec h C t self u r q :
  rep h None (plug C t) -> rootid t = Some self -> NoDup (ctx_ids C ++ inord t) ->
  rep h q u -> rootid u = Some r -> r <> self -> NoDup (ctx_ids C ++ inord u) ->
  exists h' root', replace_leaf self (Some r) (rootid (plug C t)) h = Val (h', root') /\
    root' = rootid (plug C u) /\ rep h' None (plug C u) /\ same_data h h' /\ (Hok h -> Hok h').
Proof.
  intros R Hself Hnd Ru Hr Hne Hndu. apply rep_plug in R as [Rc R]. rewrite Hself in Rc.
  pose proof (NoDup_app_inv _ _ Hnd) as (NC & NT & ND).
  pose proof (NoDup_app_inv _ _ Hndu) as (_ & NU & NDU).
  destruct t as [|tl s0 tr]; [done|]. simpl in Hself. injection Hself as ->.
  destruct u as [|ul r0 ur]; [done|]. simpl in Hr. injection Hr as ->.
  destruct R as ((xs & Hs & Hps & _) & _).
  pose proof Ru as ((xr & Hxr & Hpr & _) & _).
  assert (Ns : self ∉ ctx_ids C). { intros Hin. apply (ND _ Hin). simpl. set_solver. }
  assert (Nr : r ∉ ctx_ids C). { intros Hin. apply (NDU _ Hin). simpl. set_solver. }
  unfold replace_leaf.
  erewrite bind_val by (apply get_val; eauto). rewrite Hps.
  erewrite bind_val by (apply upd_val; eauto).
  set (h1 := <[r:=with_parent (ctx_parent C) xr]> h).
  assert (Hs1 : h1 !! self = Some xs) by (unfold h1; rewrite list_lookup_insert_ne; auto).
  assert (Rc1 : rep_ctx h1 C (Some self)) by (apply rep_ctx_insert; auto).
  assert (Ru1 : rep h1 (ctx_parent C) (T ul r ur)) by (eapply rep_reparent; eauto).
  assert (Hxr1 : h1 !! r = Some (with_parent (ctx_parent C) xr)).
  { apply list_lookup_insert. eapply lookup_lt_Some; eauto. }
  assert (D1 : same_data h h1) by exact (same_data_insert h r xr (with_parent (ctx_parent C) xr) Hxr eq_refl).
  assert (O1 : Hok h -> Hok h1).
  { intros HH. apply Hok_insert; auto. apply height_ok_parent; eauto. }
  erewrite bind_val by (eapply is_left_child_spec; eauto).
  assert (Main : exists h2, (if match C with CL _ _ _ => true | _ => false end
      then p <- need (ctx_parent C);; set_left p (Some r);;; ret (rootid (plug C (T tl self tr)))
      else br <- is_right_child self;;
           (if br : bool then p <- need (ctx_parent C);; set_right p (Some r);;; ret (rootid (plug C (T tl self tr)))
            else ret (Some r))) h1 = Val (h2, rootid (plug C (T ul r ur))) /\
      rep_ctx h2 C (Some r) /\ rep h2 (ctx_parent C) (T ul r ur) /\ same_data h1 h2 /\ (Hok h1 -> Hok h2)).
  { assert (Hroot : forall D u1 u2, D <> Top -> rootid (plug D u1) = rootid (plug D u2)).
    { intros D. induction D; intros u1 u2 HD; [done| |]; simpl; (destruct D; [done|apply IHD; done|apply IHD; done]). }
    destruct C as [|C p k|k p C].
    - erewrite bind_val by (eapply is_right_child_spec; eauto). exists h1. split; [done|].
      split; [auto|]. split; [auto|]. split; [apply same_data_refl|auto].
    - cbn [ctx_parent]. erewrite bind_val by apply need_val.
      pose proof Rc1 as ((xp & Hp & _) & _).
      erewrite bind_val. 2:{ eapply (set_left_val h1 p xp (Some r) r); eauto. set_solver. }
      rewrite (list_insert_id h1 r). 2:{ rewrite Hxr1. done. }
      eexists. split; [unfold ret; erewrite Hroot by done; reflexivity|].
      split; [eapply rep_ctx_hang_l; eauto|]. split.
      { apply rep_insert; auto. simpl in NDU. specialize (NDU p). set_solver. }
      split; [exact (same_data_insert h1 p xp (with_left (Some r) xp) Hp eq_refl)|].
      intros HH. apply Hok_insert; auto. apply height_ok_left; eauto.
    - erewrite bind_val by (eapply is_right_child_spec; eauto).
      cbn [ctx_parent]. erewrite bind_val by apply need_val.
      pose proof Rc1 as ((xp & Hp & _) & _).
      erewrite bind_val. 2:{ eapply (set_right_val h1 p xp (Some r) r); eauto. set_solver. }
      rewrite (list_insert_id h1 r). 2:{ rewrite Hxr1. done. }
      eexists. split; [unfold ret; erewrite Hroot by done; reflexivity|].
      split; [eapply rep_ctx_hang_r; eauto|]. split.
      { apply rep_insert; auto. simpl in NDU. specialize (NDU p). set_solver. }
      split; [exact (same_data_insert h1 p xp (with_right (Some r) xp) Hp eq_refl)|].
      intros HH. apply Hok_insert; auto. apply height_ok_right; eauto. }
  destruct Main as (h2 & E2 & Rc2 & R2 & D2 & O2).
  erewrite bind_val by exact E2.
  assert (RP : rep h2 None (plug C (T ul r ur))) by (apply rep_plug; auto).
  assert (NP : NoDup (inord (plug C (T ul r ur)))).
  { eapply NoDup_perm; [|exact Hndu]. apply plug_ids. }
  destruct (update_heights_spec h2 C _ r RP eq_refl NP) as (h3 & E3 & S3 & O3).
  erewrite bind_val by eauto.
  eexists _, _. split; [reflexivity|]. split; [done|]. split; [eapply rep_hsim; eauto|]. split; [|auto].
  eapply same_data_trans; [exact D1|]. eapply same_data_trans; [exact D2|]. by apply hsim_same_data.
Qed.

(* ---------- minimum, maximum, neighbours ---------- *)
Lemma minimum_fuel_spec fuel h p t n : rep h p t -> rootid t = Some n -> depth t <= fuel ->
  minimum_fuel fuel n h = Val (h, first_leaf t n).
Proof.
  revert fuel p n. induction t as [|l IHl m r _]; intros fuel p n R Hr Hd; [done|].
  simpl in Hr. injection Hr as <-. destruct fuel; [simpl in Hd; lia|]. simpl in Hd.
  destruct R as ((x & Hx & Hp & Hl & Hr) & Rl & Rr).
  simpl. erewrite bind_val by (apply get_val; eauto). rewrite Hl. destruct l as [|l1 k l2]; [done|].
  refine (IHl fuel (Some m) k Rl eq_refl _). lia.
Qed.
Lemma maximum_fuel_spec fuel h p t n : rep h p t -> rootid t = Some n -> depth t <= fuel ->
  maximum_fuel fuel n h = Val (h, last_leaf t n).
Proof.
  revert fuel p n. induction t as [|l _ m r IHr]; intros fuel p n R Hr Hd; [done|].
  simpl in Hr. injection Hr as <-. destruct fuel; [simpl in Hd; lia|]. simpl in Hd.
  destruct R as ((x & Hx & Hp & Hl & Hr) & Rl & Rr).
  simpl. erewrite bind_val by (apply get_val; eauto). rewrite Hr. destruct r as [|l1 k l2]; [done|].
  refine (IHr fuel (Some m) k Rr eq_refl _). lia.
Qed.
Lemma minimum_spec h p t n : rep h p t -> rootid t = Some n -> NoDup (inord t) ->
  minimum n h = Val (h, first_leaf t n).
Proof. intros R Hr Hnd. unfold minimum. eapply minimum_fuel_spec; eauto. pose proof (rep_depth _ _ _ R Hnd). lia. Qed.
Lemma maximum_spec h p t n : rep h p t -> rootid t = Some n -> NoDup (inord t) ->
  maximum n h = Val (h, last_leaf t n).
Proof. intros R Hr Hnd. unfold maximum. eapply maximum_fuel_spec; eauto. pose proof (rep_depth _ _ _ R Hnd). lia. Qed.

(* the leaf following / preceding the hole *)
Fixpoint ctx_succ (c : ctx) : option nat :=
  match c with Top => None | CL _ n r => match r with E => None | T _ k _ => Some (first_leaf r k) end | CR _ _ c => ctx_succ c end.
Fixpoint ctx_pred (c : ctx) : option nat :=
  match c with Top => None | CR l n _ => match l with E => None | T _ k _ => Some (last_leaf l k) end | CL c _ _ => ctx_pred c end.

(* the point where the climb stops *)
Fixpoint climb_r (c : ctx) (n : nat) : ctx * nat := match c with CR _ p c => climb_r c p | _ => (c, n) end.
Fixpoint climb_l (c : ctx) (n : nat) : ctx * nat := match c with CL c p _ => climb_l c p | _ => (c, n) end.

Lemma climb_right_spec fuel h C n x : rep_ctx h C (Some n) -> h !! n = Some x -> n_parent x = ctx_parent C ->
  NoDup (n :: ctx_ids C) -> ctx_depth C < fuel ->
  let '(D, m) := climb_r C n in
  climb_right_fuel fuel n h = Val (h, m) /\ rep_ctx h D (Some m) /\ NoDup (ctx_ids D) /\
  (exists y, h !! m = Some y /\ n_parent y = ctx_parent D) /\ ctx_succ D = ctx_succ C /\
  match D with CR _ _ _ => False | _ => True end.
Proof.
  revert C n x. induction fuel as [|fuel IH]; intros C n x Rc Hx Hp Hnd Hf; [lia|].
  apply NoDup_cons in Hnd as (Nn & NC).
  pose proof (is_right_child_spec h C n x Rc Hx Hp Nn) as Er.
  destruct C as [|C p r|l p C]; simpl climb_r; cbn [climb_right_fuel]; erewrite bind_val by exact Er; cbv iota.
  - split_and!; auto. eauto.
  - split_and!; auto. eauto.
  - erewrite bind_val by (apply get_val; eauto). rewrite Hp. simpl ctx_parent. erewrite bind_val by apply need_val.
    destruct Rc as ((y & Hy & Hpy & _) & _ & RC).
    specialize (IH C p y RC Hy Hpy). destruct (climb_r C p) as [D m].
    destruct IH as (E1 & ? & ? & ? & ? & ?); [|simpl in Hf; lia|].
    { simpl in NC. apply NoDup_cons in NC as [N1 N2]. apply NoDup_cons. split; [set_solver|].
      apply NoDup_app in N2. tauto. }
    split_and!; auto.
Qed.
Lemma climb_left_spec fuel h C n x : rep_ctx h C (Some n) -> h !! n = Some x -> n_parent x = ctx_parent C ->
  NoDup (n :: ctx_ids C) -> ctx_depth C < fuel ->
  let '(D, m) := climb_l C n in
  climb_left_fuel fuel n h = Val (h, m) /\ rep_ctx h D (Some m) /\ NoDup (ctx_ids D) /\
  (exists y, h !! m = Some y /\ n_parent y = ctx_parent D) /\ ctx_pred D = ctx_pred C /\
  match D with CL _ _ _ => False | _ => True end.
Proof.
  revert C n x. induction fuel as [|fuel IH]; intros C n x Rc Hx Hp Hnd Hf; [lia|].
  apply NoDup_cons in Hnd as (Nn & NC).
  pose proof (is_left_child_spec h C n x Rc Hx Hp Nn) as Er.
  destruct C as [|C p r|l p C]; simpl climb_l; cbn [climb_left_fuel]; erewrite bind_val by exact Er; cbv iota.
  - split_and!; auto. eauto.
  - erewrite bind_val by (apply get_val; eauto). rewrite Hp. simpl ctx_parent. erewrite bind_val by apply need_val.
    destruct Rc as ((y & Hy & Hpy & _) & _ & RC).
    specialize (IH C p y RC Hy Hpy). destruct (climb_l C p) as [D m].
    destruct IH as (E1 & ? & ? & ? & ? & ?); [|simpl in Hf; lia|].
    { simpl in NC. apply NoDup_cons in NC as [N1 N2]. apply NoDup_cons. split; [set_solver|].
      apply NoDup_app in N2. tauto. }
    split_and!; auto.
  - split_and!; auto. eauto.
Qed.

Lemma successor_leaf_spec h C n :
  rep h None (plug C (leaf n)) -> NoDup (inord (plug C (leaf n))) ->
  successor n h = Val (h, ctx_succ C).
Proof.
  intros R Hnd. apply rep_plug in R as [Rc R]. simpl in Rc, R.
  destruct R as ((x & Hx & Hp & Hl & Hr) & _).
  assert (ND : NoDup (n :: ctx_ids C)).
  { eapply NoDup_perm; [|exact Hnd]. rewrite plug_ids. simpl. solve_Permutation. }
  unfold successor. erewrite bind_val by (apply get_val; eauto). rewrite Hr.
  erewrite bind_val by reflexivity.
  assert (HD : ctx_depth C < S (length h)).
  { apply NoDup_cons in ND as (_ & N1). pose proof (rep_ctx_depth _ _ _ Rc N1). lia. }
  pose proof (climb_right_spec (S (length h)) h C n x Rc Hx Hp ND HD) as Hc.
  destruct (climb_r C n) as [D m]. destruct Hc as (E1 & RD & NDD & (y & Hy & Hpy) & Hs & Hshape).
  erewrite bind_val by eauto. erewrite bind_val by (apply get_val; eauto). rewrite Hpy, <- Hs.
  destruct D as [|D p r|l p D]; [done| |done]. cbn [ctx_parent].
  destruct RD as ((z & Hz & _ & _ & Hrz) & Rr & _).
  erewrite bind_val by (apply get_val; eauto). rewrite Hrz.
  destruct r as [|r1 k r2]; [done|]. cbn [rootid]. cbv beta iota.
  erewrite bind_val. 2:{ eapply minimum_spec; eauto. simpl in NDD. apply NoDup_cons in NDD as [_ N2].
    apply NoDup_app in N2. apply N2. }
  done.
Qed.
Lemma predecessor_leaf_spec h C n :
  rep h None (plug C (leaf n)) -> NoDup (inord (plug C (leaf n))) ->
  predecessor n h = Val (h, ctx_pred C).
Proof.
  intros R Hnd. apply rep_plug in R as [Rc R]. simpl in Rc, R.
  destruct R as ((x & Hx & Hp & Hl & Hr) & _).
  assert (ND : NoDup (n :: ctx_ids C)).
  { eapply NoDup_perm; [|exact Hnd]. rewrite plug_ids. simpl. solve_Permutation. }
  unfold predecessor. erewrite bind_val by (apply get_val; eauto). rewrite Hl.
  erewrite bind_val by reflexivity.
  assert (HD : ctx_depth C < S (length h)).
  { apply NoDup_cons in ND as (_ & N1). pose proof (rep_ctx_depth _ _ _ Rc N1). lia. }
  pose proof (climb_left_spec (S (length h)) h C n x Rc Hx Hp ND HD) as Hc.
  destruct (climb_l C n) as [D m]. destruct Hc as (E1 & RD & NDD & (y & Hy & Hpy) & Hs & Hshape).
  erewrite bind_val by eauto. erewrite bind_val by (apply get_val; eauto). rewrite Hpy, <- Hs.
  destruct D as [|D p r|l p D]; [done|done|]. cbn [ctx_parent].
  destruct RD as ((z & Hz & _ & Hlz & _) & Rl & _).
  erewrite bind_val by (apply get_val; eauto). rewrite Hlz.
  destruct l as [|r1 k r2]; [done|]. cbn [rootid]. cbv beta iota.
  erewrite bind_val. 2:{ eapply maximum_spec; eauto. simpl in NDD. apply NoDup_cons in NDD as [_ N2].
    apply NoDup_app in N2. apply N2. }
  done.
Qed.
End Ops.
