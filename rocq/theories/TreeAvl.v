(* TreeAvl.v -- Tree.balance, Tree.insert and Tree.delete with exact heights. *)
From stdpp Require Import base list sets.
From Coq Require Import ZArith Lia.
From Verif Require Import Arith Monad Tree TreeProofs TreeOps.
Local Open Scope monad_scope.

(* the heights of the children of every node differ by at most one *)
Fixpoint avl (t : tree) : Prop :=
  match t with
  | E => True
  | T l _ r => depth l <= S (depth r) /\ depth r <= S (depth l) /\ avl l /\ avl r
  end.

Section Avl.
Context {X : Type}.
Notation heap := (list (node X)).
Implicit Types h : heap.

Definition zd (t : tree) : Z := Z.of_nat (depth t).
Definition lheavy (l r : tree) (test : Z -> bool) : bool :=
  (1 <? zd l - zd r)%Z && match l with T a _ b => test (zd a - zd b)%Z | E => false end.
Definition rheavy (l r : tree) (test : Z -> bool) : bool :=
  (zd l - zd r <? -1)%Z && match r with T a _ b => test (zd a - zd b)%Z | E => false end.

Lemma cok_T_parts h l n r : cok h (T l n r) -> cok h l /\ cok h r.
Proof. simpl. tauto. Qed.

Lemma cok_same h h' l n r : NoDup (inord (T l n r)) -> cached h' n = cached h n -> cok h' l -> cok h' r -> cok h (T l n r) -> cok h' (T l n r).
Proof. intros _ Hn Cl Cr (H & _ & _). cbn [cok]. rewrite Hn. auto. Qed.

Lemma balance_of_val h p l n r : rep h p (T l n r) -> NoDup (inord (T l n r)) -> cok h l -> cok h r ->
  exists h', balance_of n h = Val (h', (zd l - zd r)%Z) /\ hsim h h' /\ cok h' l /\ cok h' r /\
    (forall m, m ∉ inord l -> m ∉ inord r -> cached h' m = cached h m).
Proof.
  intros R Hnd Cl Cr. destruct (balance_of_spec h p l n r R Hnd) as (h1 & b & E1 & _).
  destruct (balance_of_exact _ _ _ _ _ _ _ R Hnd E1) as (S1 & F1 & P1). destruct (P1 Cl Cr) as (-> & C1 & C2).
  exists h1. auto 10.
Qed.

Lemma left_heavy_exact h p l n r test : rep h p (T l n r) -> NoDup (inord (T l n r)) -> cok h (T l n r) ->
  exists h', left_heavy n test h = Val (h', lheavy l r test) /\ hsim h h' /\ cok h' (T l n r) /\
    (forall m, m ∉ inord (T l n r) -> cached h' m = cached h m).
Proof.
  intros R Hnd C. pose proof (cok_T_parts _ _ _ _ C) as [Cl Cr]. pose proof (NoDup_T _ _ _ Hnd) as (N1 & N2 & N3 & N4 & N5).
  destruct (balance_of_val h p l n r R Hnd Cl Cr) as (h1 & E1 & S1 & Cl1 & Cr1 & F1).
  unfold left_heavy, lheavy. erewrite bind_val by eauto.
  pose proof (cok_same h h1 l n r Hnd (F1 _ N3 N4) Cl1 Cr1 C) as C1.
  assert (G1 : forall m, m ∉ inord (T l n r) -> cached h1 m = cached h m).
  { intros m Hm. simpl in Hm. apply F1; clear - Hm; set_solver. }
  destruct (1 <? zd l - zd r)%Z eqn:Eb; [|exists h1; auto].
  pose proof (rep_hsim _ _ _ _ S1 R) as ((x & Hx & Hp & Hl & Hr) & Rl & Rr).
  erewrite bind_val by (apply get_val; eauto). destruct l as [|a m b].
  { exfalso. apply Z.ltb_lt in Eb. unfold zd in Eb. simpl in Eb. lia. }
  rewrite Hl. cbn [rootid]. erewrite bind_val by apply need_val.
  pose proof (cok_T_parts _ _ _ _ Cl1) as [Ca Cb]. pose proof (NoDup_T _ _ _ N1) as (M1 & M2 & M3 & M4 & M5).
  destruct (balance_of_val h1 _ a m b Rl N1 Ca Cb) as (h2 & E2 & S2 & Ca2 & Cb2 & F2).
  erewrite bind_val by eauto. exists h2. split; [done|]. split; [by eapply hsim_trans|]. split.
  - apply (cok_same h1 h2); auto.
    + apply F2; clear - N3; simpl in N3; set_solver.
    + apply (cok_same h1 h2); auto.
    + eapply cok_frame; [|exact Cr1]. intros q Hq. apply F2; clear - N5 Hq; simpl in N5; set_solver.
  - intros q Hq. rewrite F2, G1; auto; clear - Hq; simpl in Hq; set_solver.
Qed.

Lemma right_heavy_exact h p l n r test : rep h p (T l n r) -> NoDup (inord (T l n r)) -> cok h (T l n r) ->
  exists h', right_heavy n test h = Val (h', rheavy l r test) /\ hsim h h' /\ cok h' (T l n r) /\
    (forall m, m ∉ inord (T l n r) -> cached h' m = cached h m).
Proof.
  intros R Hnd C. pose proof (cok_T_parts _ _ _ _ C) as [Cl Cr]. pose proof (NoDup_T _ _ _ Hnd) as (N1 & N2 & N3 & N4 & N5).
  destruct (balance_of_val h p l n r R Hnd Cl Cr) as (h1 & E1 & S1 & Cl1 & Cr1 & F1).
  unfold right_heavy, rheavy. erewrite bind_val by eauto.
  pose proof (cok_same h h1 l n r Hnd (F1 _ N3 N4) Cl1 Cr1 C) as C1.
  assert (G1 : forall m, m ∉ inord (T l n r) -> cached h1 m = cached h m).
  { intros m Hm. simpl in Hm. apply F1; clear - Hm; set_solver. }
  destruct (zd l - zd r <? -1)%Z eqn:Eb; [|exists h1; auto].
  pose proof (rep_hsim _ _ _ _ S1 R) as ((x & Hx & Hp & Hl & Hr) & Rl & Rr).
  erewrite bind_val by (apply get_val; eauto). destruct r as [|a m b].
  { exfalso. apply Z.ltb_lt in Eb. unfold zd in Eb. simpl in Eb. lia. }
  rewrite Hr. cbn [rootid]. erewrite bind_val by apply need_val.
  pose proof (cok_T_parts _ _ _ _ Cr1) as [Ca Cb]. pose proof (NoDup_T _ _ _ N2) as (M1 & M2 & M3 & M4 & M5).
  destruct (balance_of_val h1 _ a m b Rr N2 Ca Cb) as (h2 & E2 & S2 & Ca2 & Cb2 & F2).
  erewrite bind_val by eauto. exists h2. split; [done|]. split; [by eapply hsim_trans|]. split.
  - apply (cok_same h1 h2); auto.
    + apply F2; clear - N4; simpl in N4; set_solver.
    + eapply cok_frame; [|exact Cl1]. intros q Hq. apply F2; clear - N5 Hq; specialize (N5 q Hq); simpl in N5; set_solver.
    + apply (cok_same h1 h2); auto.
  - intros q Hq. rewrite F2, G1; auto; clear - Hq; simpl in Hq; set_solver.
Qed.

(* writing the child that is already there *)
Lemma set_left_same h C n r q t : rep_ctx h (CL C n r) (Some q) -> rep h (Some n) t -> rootid t = Some q -> n <> q ->
  set_left n (Some q) h = Val (h, tt).
Proof.
  intros ((x & Hx & Hp & Hl & Hr) & _) R Hq Hne. destruct t as [|a m b]; [done|]. injection Hq as ->.
  destruct R as ((y & Hy & Hpy & _) & _).
  erewrite (set_left_val h n x (Some q) q); eauto. f_equal. f_equal.
  rewrite (list_insert_id h q). 2:{ rewrite Hy. f_equal. destruct y; simpl in *; by subst. }
  rewrite list_insert_id; auto. rewrite Hx. f_equal. destruct x; simpl in *; by subst.
Qed.
Lemma set_right_same h C n l q t : rep_ctx h (CR l n C) (Some q) -> rep h (Some n) t -> rootid t = Some q -> n <> q ->
  set_right n (Some q) h = Val (h, tt).
Proof.
  intros ((x & Hx & Hp & Hl & Hr) & _) R Hq Hne. destruct t as [|a m b]; [done|]. injection Hq as ->.
  destruct R as ((y & Hy & Hpy & _) & _).
  erewrite (set_right_val h n x (Some q) q); eauto. f_equal. f_equal.
  rewrite (list_insert_id h q). 2:{ rewrite Hy. f_equal. destruct y; simpl in *; by subst. }
  rewrite list_insert_id; auto. rewrite Hx. f_equal. destruct x; simpl in *; by subst.
Qed.

(* the two double rotations *)
Definition double_right (n : nat) : M heap nat :=
  x <- get n;; l <- need (n_left x);; l' <- rotate_left l;; set_left n (Some l');;; rotate_right n.
Definition double_left (n : nat) : M heap nat :=
  x <- get n;; r <- need (n_right x);; r' <- rotate_right r;; set_right n (Some r');;; rotate_left n.

Lemma double_right_spec h C la m lba q lbb n r :
  rep_ctx h C (Some n) -> rep h (ctx_parent C) (T (T la m (T lba q lbb)) n r) -> NoDup (ctx_ids C ++ inord (T (T la m (T lba q lbb)) n r)) ->
  exists h', double_right n h = Val (h', q) /\ rep_ctx h' C (Some q) /\ rep h' (ctx_parent C) (T (T la m lba) q (T lbb n r)) /\
    same_data h h' /\ (forall k, k ∉ inord (T (T la m (T lba q lbb)) n r) -> cached h' k = cached h k) /\
    (cok h la -> cok h lba -> cok h lbb -> cok h r -> cok h' (T (T la m lba) q (T lbb n r))).
Proof.
  intros Rc R Hnd. unfold double_right. pose proof R as ((x & Hx & Hp & Hl & Hr) & Rl & Rr).
  erewrite bind_val by (apply get_val; eauto). rewrite Hl. cbn [rootid]. erewrite bind_val by apply need_val.
  assert (RcL : rep_ctx h (CL C n r) (Some m)) by (simpl; eauto 10).
  assert (NL : NoDup (ctx_ids (CL C n r) ++ inord (T la m (T lba q lbb)))).
  { eapply NoDup_perm; [|exact Hnd]. simpl. solve_Permutation. }
  assert (Hnq : n <> q). { intros ->. simpl in NL. apply NoDup_cons in NL as [NL _]. clear - NL. set_solver. }
  destruct (rotate_left_spec_exact h (CL C n r) la m lba q lbb RcL Rl NL) as (h4 & E4 & Rc4 & R4 & D4 & _ & F4 & C4).
  erewrite bind_val by eauto.
  erewrite bind_val by (eapply (set_left_same h4 C n r q); eauto; done).
  simpl in Rc4. destruct Rc4 as ((x4 & Hx4 & Hp4 & Hl4 & Hr4) & Rr4 & Rc4).
  assert (R5 : rep h4 (ctx_parent C) (T (T (T la m lba) q lbb) n r)).
  { split; [|split; [exact R4|exact Rr4]]. exists x4. simpl. auto. }
  assert (N5 : NoDup (ctx_ids C ++ inord (T (T (T la m lba) q lbb) n r))).
  { eapply NoDup_perm; [|exact Hnd]. simpl. solve_Permutation. }
  destruct (rotate_right_spec_exact h4 C _ n lbb q r Rc4 R5 N5) as (h5 & E5 & Rc5 & R5' & D5 & _ & F5 & C5).
  exists h5. split; [done|]. split; [done|]. split; [done|]. split; [by eapply same_data_trans|]. split.
  - intros k Hk. rewrite F5, F4; [done| |]; clear - Hk; simpl in *; set_solver.
  - intros Ca Cb Cc Cr. destruct (cok_T_parts _ _ _ _ (C4 Ca Cb Cc)) as [C41 C42]. apply C5; auto.
    eapply cok_frame; [|exact Cr]. intros k Hk. apply F4. apply NoDup_app_inv in Hnd as (_ & Hnd & _).
    apply NoDup_T in Hnd as (_ & _ & _ & _ & Hd). clear - Hk Hd. set_solver.
Qed.

Lemma double_left_spec h C l n raa q rab m rb :
  rep_ctx h C (Some n) -> rep h (ctx_parent C) (T l n (T (T raa q rab) m rb)) -> NoDup (ctx_ids C ++ inord (T l n (T (T raa q rab) m rb))) ->
  exists h', double_left n h = Val (h', q) /\ rep_ctx h' C (Some q) /\ rep h' (ctx_parent C) (T (T l n raa) q (T rab m rb)) /\
    same_data h h' /\ (forall k, k ∉ inord (T l n (T (T raa q rab) m rb)) -> cached h' k = cached h k) /\
    (cok h l -> cok h raa -> cok h rab -> cok h rb -> cok h' (T (T l n raa) q (T rab m rb))).
Proof.
  intros Rc R Hnd. unfold double_left. pose proof R as ((x & Hx & Hp & Hl & Hr) & Rl & Rr).
  erewrite bind_val by (apply get_val; eauto). rewrite Hr. cbn [rootid]. erewrite bind_val by apply need_val.
  assert (RcR : rep_ctx h (CR l n C) (Some m)) by (simpl; eauto 10).
  assert (NL : NoDup (ctx_ids (CR l n C) ++ inord (T (T raa q rab) m rb))).
  { eapply NoDup_perm; [|exact Hnd]. simpl. solve_Permutation. }
  assert (Hnq : n <> q). { intros ->. simpl in NL. apply NoDup_cons in NL as [NL _]. clear - NL. set_solver. }
  destruct (rotate_right_spec_exact h (CR l n C) raa m rab q rb RcR Rr NL) as (h4 & E4 & Rc4 & R4 & D4 & _ & F4 & C4).
  erewrite bind_val by eauto.
  erewrite bind_val by (eapply (set_right_same h4 C n l q); eauto; done).
  simpl in Rc4. destruct Rc4 as ((x4 & Hx4 & Hp4 & Hl4 & Hr4) & Rl4 & Rc4).
  assert (R5 : rep h4 (ctx_parent C) (T l n (T raa q (T rab m rb)))).
  { split; [|split; [exact Rl4|exact R4]]. exists x4. simpl. auto. }
  assert (N5 : NoDup (ctx_ids C ++ inord (T l n (T raa q (T rab m rb))))).
  { eapply NoDup_perm; [|exact Hnd]. simpl. solve_Permutation. }
  destruct (rotate_left_spec_exact h4 C l n raa q _ Rc4 R5 N5) as (h5 & E5 & Rc5 & R5' & D5 & _ & F5 & C5).
  exists h5. split; [done|]. split; [done|]. split; [done|]. split; [by eapply same_data_trans|]. split.
  - intros k Hk. rewrite F5, F4; [done| |]; clear - Hk; simpl in *; set_solver.
  - intros Cl Ca Cb Cc. destruct (cok_T_parts _ _ _ _ (C4 Ca Cb Cc)) as [C41 C42]. apply C5; auto.
    eapply cok_frame; [|exact Cl]. intros k Hk. apply F4. apply NoDup_app_inv in Hnd as (_ & Hnd & _).
    apply NoDup_T in Hnd as (_ & _ & _ & _ & Hd). clear - Hk Hd. set_solver.
Qed.

Ltac zb := repeat match goal with
  | H : (_ && _) = true |- _ => apply andb_true_iff in H as [? ?]
  | H : (_ <? _)%Z = true |- _ => apply Z.ltb_lt in H
  | H : (_ <=? _)%Z = true |- _ => apply Z.leb_le in H
  | H : (_ <? _)%Z = false |- _ => apply Z.ltb_ge in H
  | H : (_ <=? _)%Z = false |- _ => apply Z.leb_gt in H
  end.

Lemma balance_exact h C l n r :
  rep_ctx h C (Some n) -> rep h (ctx_parent C) (T l n r) -> NoDup (ctx_ids C ++ inord (T l n r)) -> cok h (T l n r) ->
  exists h' m t', balance n h = Val (h', m) /\ rootid t' = Some m /\ inord t' = inord (T l n r) /\
    rep_ctx h' C (Some m) /\ rep h' (ctx_parent C) t' /\ same_data h h' /\ cok h' t' /\
    (forall k, k ∉ inord (T l n r) -> cached h' k = cached h k) /\
    (avl l -> avl r -> depth l <= 2 + depth r -> depth r <= 2 + depth l -> avl t' /\ depth t' <= depth (T l n r) <= S (depth t')) /\
    (depth l <= S (depth r) -> depth r <= S (depth l) -> t' = T l n r).
Proof.
  intros Rc R Hnd C0. pose proof (NoDup_app_inv _ _ Hnd) as (NC & NT & ND). unfold balance.
  destruct (left_heavy_exact h _ l n r (fun b => (0 <=? b)%Z) R NT C0) as (h1 & E1 & S1 & C1 & F1).
  erewrite bind_val by eauto.
  pose proof (rep_hsim _ _ _ _ S1 R) as R1. pose proof (rep_ctx_hsim _ _ _ _ S1 Rc) as Rc1.
  destruct (lheavy l r (fun b => (0 <=? b)%Z)) eqn:B1; cbv iota.
  { unfold lheavy in B1. destruct l as [|la m lb]; [by rewrite andb_false_r in B1|]. zb.
    destruct (rotate_right_spec_exact h1 C la n lb m r Rc1 R1 Hnd) as (h2 & E2 & Rc2 & R2 & D2 & _ & F2 & C2).
    exists h2, m, (T la m (T lb n r)). destruct (cok_T_parts _ _ _ _ C1) as [C1l C1r]. destruct (cok_T_parts _ _ _ _ C1l).
    split_and!; auto.
    - simpl; rewrite <- !app_assoc; done.
    - eapply same_data_trans; [apply hsim_same_data; exact S1|done].
    - intros k Hk. rewrite F2 by done. auto.
    - unfold zd in *. cbn [avl depth] in *. intros. destruct_and?. split_and!; auto; lia.
    - unfold zd in *. intros. exfalso. lia. }
  destruct (right_heavy_exact h1 _ l n r (fun b => (b <=? 0)%Z) R1 NT C1) as (h2 & E2 & S2 & C2 & F2).
  erewrite bind_val by eauto.
  pose proof (rep_hsim _ _ _ _ S2 R1) as R2. pose proof (rep_ctx_hsim _ _ _ _ S2 Rc1) as Rc2.
  destruct (rheavy l r (fun b => (b <=? 0)%Z)) eqn:B2; cbv iota.
  { unfold rheavy in B2. destruct r as [|ra m rb]; [by rewrite andb_false_r in B2|]. zb.
    destruct (rotate_left_spec_exact h2 C l n ra m rb Rc2 R2 Hnd) as (h3 & E3 & Rc3 & R3 & D3 & _ & F3 & C3).
    exists h3, m, (T (T l n ra) m rb). destruct (cok_T_parts _ _ _ _ C2) as [C2l C2r]. destruct (cok_T_parts _ _ _ _ C2r).
    split_and!; auto.
    - simpl; rewrite <- !app_assoc; done.
    - eapply same_data_trans; [apply hsim_same_data; eapply hsim_trans; [exact S1|exact S2]|done].
    - intros k Hk. rewrite F3, F2, F1 by done. auto.
    - unfold zd in *. cbn [avl depth] in *. intros. destruct_and?. split_and!; auto; lia.
    - unfold zd in *. intros. exfalso. lia. }
  destruct (left_heavy_exact h2 _ l n r (fun b => (b <? 0)%Z) R2 NT C2) as (h3 & E3 & S3 & C3 & F3).
  erewrite bind_val by eauto.
  pose proof (rep_hsim _ _ _ _ S3 R2) as R3. pose proof (rep_ctx_hsim _ _ _ _ S3 Rc2) as Rc3.
  pose proof (hsim_trans _ _ _ S1 S2) as S12. pose proof (hsim_trans _ _ _ S12 S3) as S13.
  assert (F13 : forall k, k ∉ inord (T l n r) -> cached h3 k = cached h k) by (intros; rewrite F3, F2, F1 by done; done).
  destruct (lheavy l r (fun b => (b <? 0)%Z)) eqn:B3; cbv iota.
  { unfold lheavy in B3. destruct l as [|la m lb]; [by rewrite andb_false_r in B3|]. zb.
    destruct lb as [|lba q lbb]; [exfalso; unfold zd in *; simpl in *; lia|].
    destruct (double_right_spec h3 C la m lba q lbb n r Rc3 R3 Hnd) as (h4 & E4 & Rc4 & R4 & D4 & F4 & C4).
    exists h4, q, (T (T la m lba) q (T lbb n r)).
    destruct (cok_T_parts _ _ _ _ C3) as [C3l C3r]. destruct (cok_T_parts _ _ _ _ C3l) as [C3a C3b]. destruct (cok_T_parts _ _ _ _ C3b).
    split_and!; auto.
    - simpl. rewrite <- !app_assoc. simpl. rewrite <- !app_assoc. done.
    - eapply same_data_trans; [apply hsim_same_data; exact S13|done].
    - intros k Hk. rewrite F4 by done. auto.
    - unfold zd in *. cbn [avl depth] in *. intros. destruct_and?. split_and!; auto; lia.
    - unfold zd in *. intros. exfalso. lia. }
  destruct (right_heavy_exact h3 _ l n r (fun b => (0 <? b)%Z) R3 NT C3) as (h4 & E4 & S4 & C4 & F4).
  erewrite bind_val by eauto.
  pose proof (rep_hsim _ _ _ _ S4 R3) as R4. pose proof (rep_ctx_hsim _ _ _ _ S4 Rc3) as Rc4.
  pose proof (hsim_trans _ _ _ S13 S4) as S14.
  assert (F14 : forall k, k ∉ inord (T l n r) -> cached h4 k = cached h k) by (intros; rewrite F4, F13 by done; done).
  destruct (rheavy l r (fun b => (0 <? b)%Z)) eqn:B4; cbv iota.
  { unfold rheavy in B4. destruct r as [|ra m rb]; [by rewrite andb_false_r in B4|]. zb.
    destruct ra as [|raa q rab]; [exfalso; unfold zd in *; simpl in *; lia|].
    destruct (double_left_spec h4 C l n raa q rab m rb Rc4 R4 Hnd) as (h5 & E5 & Rc5 & R5 & D5 & F5 & C5).
    exists h5, q, (T (T l n raa) q (T rab m rb)).
    destruct (cok_T_parts _ _ _ _ C4) as [C4l C4r]. destruct (cok_T_parts _ _ _ _ C4r) as [C4a C4b]. destruct (cok_T_parts _ _ _ _ C4a).
    split_and!; auto.
    - simpl. rewrite <- !app_assoc. simpl. rewrite <- ?app_assoc. done.
    - eapply same_data_trans; [apply hsim_same_data; exact S14|done].
    - intros k Hk. rewrite F5 by done. auto.
    - unfold zd in *. cbn [avl depth] in *. intros. destruct_and?. split_and!; auto; lia.
    - unfold zd in *. intros. exfalso. lia. }
  exists h4, n, (T l n r). split_and!; auto.
  - by apply hsim_same_data.
  - intros Al Ar H1 H2. cbn [avl]. split; [|simpl; lia]. unfold lheavy, rheavy, zd in *.
    assert (depth l <= S (depth r) /\ depth r <= S (depth l)); [|tauto].
    destruct (decide (depth l <= S (depth r))) as [Hlr|Hlr].
    + destruct (decide (depth r <= S (depth l))) as [Hrl|Hrl]; [lia|]. exfalso.
      destruct (_ <? -1)%Z eqn:Q in B2; [|zb; lia]. rewrite Q in B4. simpl in B2, B4. destruct r as [|a k b]; [simpl in *; lia|]. zb. lia.
    + exfalso. destruct (1 <? _)%Z eqn:Q in B1; [|zb; lia]. rewrite Q in B3. simpl in B1, B3. destruct l as [|a k b]; [simpl in *; lia|]. zb. lia.
Qed.
End Avl.
