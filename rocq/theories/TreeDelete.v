(* TreeDelete.v -- what Tree.delete does to the represented tree. *)
From stdpp Require Import base list sets.
From Coq Require Import ZArith Lia.
From Verif Require Import Arith Monad Tree TreeProofs TreeOps TreeAvl TreeInsert.
Local Open Scope monad_scope.

Section Delete.
Context {X K : Type} (key : node X -> result K) (lt : K -> K -> bool) (SW : StrictWeak lt).
Context (key_data : forall x y, n_data x = n_data y -> key x = key y).
Notation heap := (list (node X)).
Implicit Types h : heap.
Notation kof := (kof key). Notation keyed := (keyed key).

(* keys increase strictly along the list *)
Definition sincr h (L : list nat) : Prop :=
  forall L1 a L2 b L3 ka kb, L = L1 ++ a :: L2 ++ b :: L3 -> kof h a ka -> kof h b kb -> lt ka kb = true.
Definition hits h (k : K) (n : nat) : Prop := exists kn, kof h n kn /\ lt k kn = false /\ lt kn k = false.

Lemma sincr_app_l h L L' : sincr h (L ++ L') -> sincr h L.
Proof. intros H L1 a L2 b L3 ka kb ->. apply (H L1 a L2 b (L3 ++ L')). lsolve. Qed.
Lemma sincr_app_r h L L' : sincr h (L ++ L') -> sincr h L'.
Proof. intros H L1 a L2 b L3 ka kb ->. apply (H (L ++ L1) a L2 b L3). lsolve. Qed.
Lemma sincr_app_x h L L' a b ka kb : sincr h (L ++ L') -> a ∈ L -> b ∈ L' -> kof h a ka -> kof h b kb -> lt ka kb = true.
Proof.
  intros H (L1 & L2 & ->)%elem_of_list_split (L3 & L4 & ->)%elem_of_list_split. apply (H L1 a (L2 ++ L3) b L4). lsolve.
Qed.

Lemma sincr_lr h l r rr n kn kr : sincr h (inord (T l r rr)) -> kof h r kr -> kof h n kn ->
  (n ∈ inord l -> lt kn kr = true) /\ (n ∈ inord rr -> lt kr kn = true).
Proof.
  intros H Hr Hn. cbn [inord] in H. split; intros Hin.
  - eapply (sincr_app_x _ _ _ n r kn kr H); auto. clear; set_solver.
  - replace (inord l ++ r :: inord rr) with ((inord l ++ [r]) ++ inord rr) in H by lsolve.
    eapply (sincr_app_x _ _ _ r n kr kn H); auto. clear; set_solver.
Qed.

Lemma delete_step fuel r k h :
  delete_fuel key lt (S fuel) (Some r) k h =
  (xr <- get r;; kr <- lift (key xr);;
   if lt k kr then l <- delete_fuel key lt fuel (n_left xr) k;; set_left r l;;; update_height r;;; r' <- balance r;; ret (Some r')
   else if lt kr k then q <- delete_fuel key lt fuel (n_right xr) k;; set_right r q;;; update_height r;;; r' <- balance r;; ret (Some r')
   else match n_left xr, n_right xr with
        | None, q => ret q
        | l, None => ret l
        | Some _, Some q => temp <- minimum q;; xt <- get temp;; upd r (with_data (n_data xt));;; raise AttributeError
        end) h.
Proof. reflexivity. Qed.

Lemma bind_exn {S Y Z} (m : M S Y) (f : Y -> M S Z) (s : S) e : m s = Raise e -> bind m f s = Raise e.
Proof. unfold bind. intros ->. done. Qed.

Lemma fix_up h C l r rr : rep_ctx h C (Some r) -> rep h (ctx_parent C) (T l r rr) -> NoDup (ctx_ids C ++ inord (T l r rr)) ->
  cok h l -> cok h rr -> avl l -> avl rr -> depth l <= 2 + depth rr -> depth rr <= 2 + depth l ->
  exists h' t', (update_height r;;; r' <- balance r;; ret (Some r')) h = Val (h', rootid t') /\ t' <> E /\ inord t' = inord (T l r rr) /\
    rep_ctx h' C (rootid t') /\ rep h' (ctx_parent C) t' /\ same_data h h' /\ cok h' t' /\
    (forall k, k ∉ inord (T l r rr) -> cached h' k = cached h k) /\ avl t' /\ depth t' <= depth (T l r rr) <= S (depth t') /\
    (depth l <= S (depth rr) -> depth rr <= S (depth l) -> depth t' = depth (T l r rr)).
Proof.
  intros Rc R Hnd Cl Cr Al Ar D1 D2. pose proof (NoDup_app_inv _ _ Hnd) as (NC & NT & ND).
  destruct (update_height_spec _ _ _ _ _ R NT) as (h1 & E1 & S1 & _).
  destruct (update_height_exact _ _ _ _ _ _ _ R NT E1) as (_ & F1 & C1). specialize (C1 Cl Cr).
  erewrite bind_val by exact E1.
  destruct (balance_exact h1 C l r rr) as (h2 & m & t' & E2 & Hm & HE & Rc2 & R2 & Dt & C2 & F2 & P & P3); auto.
  { by eapply rep_ctx_hsim. } { by eapply rep_hsim. }
  erewrite bind_val by exact E2. exists h2, t'. rewrite Hm. destruct P as [P1 P2]; auto.
  split; [done|]. split; [by intros ->|]. split_and!; auto.
  - eapply same_data_trans; [by apply hsim_same_data|done].
  - intros k Hk. rewrite F2 by done. cbn [inord] in Hk. apply F1; clear - Hk; set_solver.
  - lia.
  - lia.
  - intros. by rewrite P3.
Qed.

Definition deleted h k t t' : Prop :=
  (forall n, n ∈ inord t -> hits h k n -> exists L1 L2, inord t = L1 ++ n :: L2 /\ inord t' = L1 ++ L2) /\
  ((forall n, n ∈ inord t -> ~ hits h k n) -> inord t' = inord t).

Lemma delete_fuel_spec fuel h C t k :
  rep_ctx h C (rootid t) -> rep h (ctx_parent C) t -> NoDup (ctx_ids C ++ inord t) ->
  keyed h (inord t) -> sincr h (inord t) -> cok h t -> avl t -> depth t <= fuel ->
  (forall n x, n ∈ inord t -> hits h k n -> h !! n = Some x -> n_left x <> None -> n_right x <> None ->
     delete_fuel key lt fuel (rootid t) k h = Raise AttributeError) /\
  ((forall n x, n ∈ inord t -> hits h k n -> h !! n = Some x -> n_left x = None \/ n_right x = None) ->
   exists h' t' o p, delete_fuel key lt fuel (rootid t) k h = Val (h', rootid t') /\ rep_ctx h' C o /\ rep h' p t' /\
     same_data h h' /\ deleted h k t t' /\ (exists L, inord t' ++ L ≡ₚ inord t) /\ cok h' t' /\ (forall q, q ∉ inord t -> cached h' q = cached h q) /\
     avl t' /\ depth t' <= depth t <= S (depth t') /\
     ((exists r, rootid t = Some r /\ hits h k r /\ p = Some r) \/
      ((forall r, rootid t = Some r -> ~ hits h k r) /\ p = ctx_parent C /\ o = rootid t'))).
Proof.
  revert fuel h C. induction t as [|l IHl r rr IHr]; intros fuel h C Rc R Hnd HK HI Ct Av Hd.
  { split; [intros n x Hn; exfalso; clear - Hn; simpl in Hn; set_solver|]. intros _.
    exists h, E, None, (ctx_parent C). split; [by destruct fuel|]. split; [done|]. split; [done|]. split; [done|].
    split; [split; [intros n Hn; exfalso; clear - Hn; simpl in Hn; set_solver|done]|]. split; [by exists []|]. split; [done|]. split; [done|]. split; [done|]. split; [simpl; lia|]. right. done. }
  destruct fuel as [|fuel]; [simpl in Hd; lia|]. simpl in Hd. cbn [rootid]. rewrite delete_step.
  pose proof R as ((x & Hx & Hp & Hl & Hr) & Rl & Rr). erewrite bind_val by (apply get_val; exact Hx).
  destruct (HK r) as [kr Hkr]; [apply in_root|].
  assert (key x = Val kr) as Kx. { destruct Hkr as (x' & Hx' & Kx). congruence. }
  rewrite Kx. erewrite bind_val by reflexivity.
  pose proof (NoDup_app_inv _ _ Hnd) as (NC & NT & ND). pose proof (NoDup_T _ _ _ NT) as (N1 & N2 & N3 & N4 & N5).
  destruct Av as (A1 & A2 & A3 & A4). destruct (cok_T_parts _ _ _ _ Ct) as [Cl Cr].
  destruct (lt k kr) eqn:Ek; cbv iota; [|destruct (lt kr k) eqn:Ek2; cbv iota].
  - (* in the left subtree *)
    assert (Honly : forall n, n ∈ inord (T l r rr) -> hits h k n -> n ∈ inord l).
    { intros n Hn (kn & Hkn & Q1 & Q2). apply in_T in Hn as [Hn|[-> |Hn]]; [done| |].
      - pose proof (kof_fun _ _ _ _ _ Hkn Hkr) as ->. congruence.
      - destruct (sincr_lr _ _ _ _ n kn kr HI Hkr Hkn) as [_ Hs]. specialize (Hs Hn).
        exfalso. apply (sw_asym _ SW) in Hs. rewrite (sw_neg _ SW _ _ _ Q1 Hs) in Ek. done. }
    assert (RcL : rep_ctx h (CL C r rr) (rootid l)) by (simpl; eauto 10).
    assert (NL : NoDup (ctx_ids (CL C r rr) ++ inord l)). { eapply NoDup_perm; [|exact Hnd]. simpl. solve_Permutation. }
    destruct (IHl fuel h (CL C r rr) RcL Rl NL) as [IA IB].
    { intros n Hn. by apply HK, in_l. }
    { simpl in HI. by eapply sincr_app_l. }
    { done. } { done. } { lia. }
    rewrite Hl. split.
    { intros n y Hn Hh Hy Y1 Y2. erewrite bind_exn; [done|]. eapply IA; eauto. }
    intros HB. destruct IB as (h1 & l' & o & p & E1 & Rc1 & R1 & D1 & [DD1 DD2] & (L0 & HP) & C1 & F1 & Av1 & Dp1 & _).
    { intros n y Hn. apply HB. by apply in_l. }
    assert (Nl' : NoDup (ctx_ids C ++ inord (T l' r rr))).
    { assert (NoDup (L0 ++ ctx_ids C ++ inord (T l' r rr))) as HH; [|by apply NoDup_app in HH as (_ & _ & ?)].
      eapply NoDup_perm; [|exact Hnd]. simpl. rewrite <- HP. solve_Permutation. }
    destruct (attach_left h1 C r rr o p l' Rc1 R1 Nl') as (h2 & E2 & Rc2 & R2 & D2 & F2).
    erewrite bind_val by exact E1. erewrite bind_val by exact E2.
    assert (Cl2 : cok h2 l') by (eapply cok_frame; [|exact C1]; auto).
    assert (Cr2 : cok h2 rr).
    { eapply cok_frame; [|exact Cr]. intros n Hn. rewrite F2. apply F1. clear - N5 Hn; set_solver. }
    destruct (fix_up h2 C l' r rr Rc2 R2 Nl' Cl2 Cr2 Av1 A4) as (h3 & t3 & E3 & Ne3 & HE3 & Rc3 & R3 & D3 & C3 & F3 & Av3 & Dp3).
    { lia. } { lia. }
    exists h3, t3, (rootid t3), (ctx_parent C). split; [exact E3|]. split; [done|]. split; [done|].
    split; [eapply same_data_trans; [exact D1|by eapply same_data_trans]|]. split.
    { split.
      - intros n Hn Hh. destruct (DD1 n (Honly n Hn Hh) Hh) as (L1 & L2 & Q1 & Q2).
        exists L1, (L2 ++ r :: inord rr). rewrite HE3. cbn [inord]. rewrite Q1, Q2. split; lsolve.
      - intros Hno. rewrite HE3. cbn [inord]. rewrite DD2; [done|]. intros n Hn. by apply Hno, in_l. }
    split. { exists L0. rewrite HE3. cbn [inord]. rewrite <- HP. solve_Permutation. }
    split; [done|]. split.
    { intros q Hq. rewrite F3, F2, F1; [done| |].
      - intros Hin. apply Hq. by apply in_l.
      - intros Hin. apply Hq. apply in_T in Hin as [Hin|[-> |Hin]]; [|apply in_root|by apply in_r].
        apply in_l. rewrite <- HP. apply elem_of_app. by left. }
    split; [done|]. split; [cbn [depth] in *; lia|]. right. split; [|done]. intros m [= <-] Hm. by apply N3, Honly; [apply in_root|].
  - (* in the right subtree *)
    assert (Honly : forall n, n ∈ inord (T l r rr) -> hits h k n -> n ∈ inord rr).
    { intros n Hn (kn & Hkn & Q1 & Q2). apply in_T in Hn as [Hn|[-> |Hn]]; [| |done].
      - destruct (sincr_lr _ _ _ _ n kn kr HI Hkr Hkn) as [Hs _]. specialize (Hs Hn).
        exfalso. apply (sw_asym _ SW) in Hs. rewrite (sw_neg _ SW _ _ _ Hs Q2) in Ek2. done.
      - pose proof (kof_fun _ _ _ _ _ Hkn Hkr) as ->. congruence. }
    assert (RcR : rep_ctx h (CR l r C) (rootid rr)) by (simpl; eauto 10).
    assert (NL : NoDup (ctx_ids (CR l r C) ++ inord rr)). { eapply NoDup_perm; [|exact Hnd]. simpl. solve_Permutation. }
    destruct (IHr fuel h (CR l r C) RcR Rr NL) as [IA IB].
    { intros n Hn. by apply HK, in_r. }
    { simpl in HI. apply sincr_app_r in HI. change (r :: inord rr) with ([r] ++ inord rr) in HI. by eapply sincr_app_r. }
    { done. } { done. } { lia. }
    rewrite Hr. split.
    { intros n y Hn Hh Hy Y1 Y2. erewrite bind_exn; [done|]. eapply IA; eauto. }
    intros HB. destruct IB as (h1 & r' & o & p & E1 & Rc1 & R1 & D1 & [DD1 DD2] & (L0 & HP) & C1 & F1 & Av1 & Dp1 & _).
    { intros n y Hn. apply HB. by apply in_r. }
    assert (Nr' : NoDup (ctx_ids C ++ inord (T l r r'))).
    { assert (NoDup (L0 ++ ctx_ids C ++ inord (T l r r'))) as HH; [|by apply NoDup_app in HH as (_ & _ & ?)].
      eapply NoDup_perm; [|exact Hnd]. simpl. rewrite <- HP. solve_Permutation. }
    destruct (attach_right h1 C r l o p r' Rc1 R1 Nr') as (h2 & E2 & Rc2 & R2 & D2 & F2).
    erewrite bind_val by exact E1. erewrite bind_val by exact E2.
    assert (Cr2 : cok h2 r') by (eapply cok_frame; [|exact C1]; auto).
    assert (Cl2 : cok h2 l).
    { eapply cok_frame; [|exact Cl]. intros n Hn. rewrite F2. apply F1. clear - N5 Hn; set_solver. }
    destruct (fix_up h2 C l r r' Rc2 R2 Nr' Cl2 Cr2 A3 Av1) as (h3 & t3 & E3 & Ne3 & HE3 & Rc3 & R3 & D3 & C3 & F3 & Av3 & Dp3).
    { lia. } { lia. }
    exists h3, t3, (rootid t3), (ctx_parent C). split; [exact E3|]. split; [done|]. split; [done|].
    split; [eapply same_data_trans; [exact D1|by eapply same_data_trans]|]. split.
    { split.
      - intros n Hn Hh. destruct (DD1 n (Honly n Hn Hh) Hh) as (L1 & L2 & Q1 & Q2).
        exists (inord l ++ r :: L1), L2. rewrite HE3. cbn [inord]. rewrite Q1, Q2. split; lsolve.
      - intros Hno. rewrite HE3. cbn [inord]. rewrite DD2; [done|]. intros n Hn. by apply Hno, in_r. }
    split. { exists L0. rewrite HE3. cbn [inord]. rewrite <- HP. solve_Permutation. }
    split; [done|]. split.
    { intros q Hq. rewrite F3, F2, F1; [done| |].
      - intros Hin. apply Hq. by apply in_r.
      - intros Hin. apply Hq. apply in_T in Hin as [Hin|[-> |Hin]]; [by apply in_l|apply in_root|].
        apply in_r. rewrite <- HP. apply elem_of_app. by left. }
    split; [done|]. split; [cbn [depth] in *; lia|]. right. split; [|done]. intros m [= <-] Hm. by apply N4, Honly; [apply in_root|].
  - (* the root of this subtree *)
    assert (Hhit : hits h k r) by (exists kr; auto).
    assert (Honly : forall n, n ∈ inord (T l r rr) -> hits h k n -> n = r).
    { intros n Hn (kn & Hkn & Q1 & Q2). destruct (sincr_lr _ _ _ _ n kn kr HI Hkr Hkn) as [Hs1 Hs2].
      apply in_T in Hn as [Hn|[-> |Hn]]; [|done|]; exfalso.
      - specialize (Hs1 Hn). rewrite (sw_neg _ SW _ _ _ Q2 Ek) in Hs1. done.
      - specialize (Hs2 Hn). rewrite (sw_neg _ SW _ _ _ Ek2 Q1) in Hs2. done. }
    split.
    { intros n y Hn Hh Hy Y1 Y2. pose proof (Honly n Hn Hh) as ->. rewrite Hx in Hy. injection Hy as <-.
      destruct (n_left x) as [a|] eqn:El; [|done]. destruct (n_right x) as [b|] eqn:Er; [|done].
      erewrite bind_val by (eapply minimum_spec; [exact Rr|by rewrite <- Hr|done]).
      assert (Hf : exists xt, h !! first_leaf rr b = Some xt).
      { apply (rep_lookup h (Some r) rr); [done|]. destruct rr as [|u v w]; [done|].
        destruct (inord_first (T u v w) b) as [q Hq]; [done|]. rewrite Hq. clear; set_solver. }
      destruct Hf as [xt Hxt]. erewrite bind_val by (apply get_val; exact Hxt).
      erewrite bind_val by (apply upd_val; exact Hx). done. }
    intros HB. destruct (HB r x) as [Hz|Hz]; auto; [apply in_root| |].
    + assert (l = E) as -> by (destruct l; simpl in Hl; congruence). rewrite Hz, Hr.
      exists h, rr, (Some r), (Some r). split; [done|]. split; [done|]. split; [done|]. split; [done|]. split.
      { split; [|intros Hno; exfalso; apply (Hno r); [apply in_root|done]]. intros n Hn Hh. pose proof (Honly n Hn Hh) as ->. by exists [], (inord rr). }
      split. { exists [r]. simpl. solve_Permutation. }
      split; [done|]. split; [done|]. split; [done|]. split; [simpl; lia|]. left. by exists r.
    + assert (rr = E) as -> by (destruct rr; simpl in Hr; congruence). rewrite Hz, Hl.
      exists h, l, (Some r), (Some r). split; [by destruct l|]. split; [done|]. split; [done|]. split; [done|]. split.
      { split; [|intros Hno; exfalso; apply (Hno r); [apply in_root|done]]. intros n Hn Hh. pose proof (Honly n Hn Hh) as ->.
        exists (inord l), []. by rewrite app_nil_r. }
      split. { exists [r]. done. }
      split; [done|]. split; [done|]. split; [done|]. split; [simpl in *; lia|]. left. by exists r.
Qed.
End Delete.
