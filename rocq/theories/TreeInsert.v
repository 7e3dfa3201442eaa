(* TreeInsert.v -- what Tree.insert does to the represented tree. *)
From stdpp Require Import base list sets.
From Coq Require Import ZArith Lia.
From Verif Require Import Arith Monad Tree TreeProofs TreeOps TreeAvl.
Local Open Scope monad_scope.

(* a strict weak order on keys: what `<` is on numbers *)
Record StrictWeak {K : Type} (lt : K -> K -> bool) : Prop := {
  sw_asym : forall a b, lt a b = true -> lt b a = false;
  sw_neg : forall a b c, lt a b = false -> lt b c = false -> lt a c = false
}.

Ltac lsolve := repeat (rewrite <- ?app_assoc; simpl); done.
Lemma in_root l n r : n ∈ inord (T l n r). Proof. simpl. set_solver. Qed.
Lemma in_l l n r m : m ∈ inord l -> m ∈ inord (T l n r). Proof. simpl. set_solver. Qed.
Lemma in_r l n r m : m ∈ inord r -> m ∈ inord (T l n r). Proof. simpl. set_solver. Qed.
Lemma in_T l n r m : m ∈ inord (T l n r) -> m ∈ inord l \/ m = n \/ m ∈ inord r. Proof. simpl. set_solver. Qed.
Section Insert.
Context {X K : Type} (key : node X -> result K) (lt : K -> K -> bool) (SW : StrictWeak lt).
Context (key_data : forall x y, n_data x = n_data y -> key x = key y).
Notation heap := (list (node X)).
Implicit Types h : heap.

Definition kof h (n : nat) (k : K) : Prop := exists x, h !! n = Some x /\ key x = Val k.
(* keys do not decrease along the list *)
Definition incr h (L : list nat) : Prop :=
  forall L1 a L2 b L3 ka kb, L = L1 ++ a :: L2 ++ b :: L3 -> kof h a ka -> kof h b kb -> lt kb ka = false.
Definition keyed h (L : list nat) : Prop := forall n, n ∈ L -> exists k, kof h n k.

Lemma kof_fun h n k k' : kof h n k -> kof h n k' -> k = k'.
Proof. intros (x & Hx & Kx) (y & Hy & Ky). congruence. Qed.
Lemma kof_same h h' n k : same_data h h' -> kof h n k <-> kof h' n k.
Proof.
  intros HD. split.
  - intros (x & Hx & Kx). destruct (same_data_lookup _ _ _ _ HD Hx) as (x' & Hx' & E). exists x'. split; auto. rewrite <- Kx. auto.
  - intros (x & Hx & Kx). symmetry in HD. destruct (same_data_lookup _ _ _ _ HD Hx) as (x' & Hx' & E). exists x'. split; auto. rewrite <- Kx. auto.
Qed.
Lemma keyed_same h h' L : same_data h h' -> keyed h L -> keyed h' L.
Proof. intros HD H n Hn. destruct (H n Hn) as [k Hk]. exists k. by apply (kof_same h). Qed.
Lemma incr_same h h' L : same_data h h' -> incr h L -> incr h' L.
Proof. intros HD H L1 a L2 b L3 ka kb HE Ha Hb. eapply H; eauto; by apply (kof_same h h'). Qed.

Lemma incr_app_l h L L' : incr h (L ++ L') -> incr h L.
Proof. intros H L1 a L2 b L3 ka kb ->. apply (H L1 a L2 b (L3 ++ L')). lsolve. Qed.
Lemma incr_app_r h L L' : incr h (L ++ L') -> incr h L'.
Proof. intros H L1 a L2 b L3 ka kb ->. apply (H (L ++ L1) a L2 b L3). lsolve. Qed.
Lemma incr_app_x h L L' a b ka kb : incr h (L ++ L') -> a ∈ L -> b ∈ L' -> kof h a ka -> kof h b kb -> lt kb ka = false.
Proof.
  intros H (L1 & L2 & ->)%elem_of_list_split (L3 & L4 & ->)%elem_of_list_split. apply (H L1 a (L2 ++ L3) b L4).
  lsolve.
Qed.
Lemma incr_app h L L' : incr h L -> incr h L' -> (forall a b ka kb, a ∈ L -> b ∈ L' -> kof h a ka -> kof h b kb -> lt kb ka = false) -> incr h (L ++ L').
Proof.
  intros H1 H2 H3 L1 a L2 b L3 ka kb HE Ha Hb.
  apply app_eq_inv in HE as [(k & -> & HE)|(k & -> & HE)].
  - destruct k as [|c k]; simpl in HE.
    + (* a heads L' *) apply (H2 [] a L2 b L3); auto.
    + injection HE as <- HE. symmetry in HE. apply app_eq_inv in HE as [(k2 & -> & HE)|(k2 & -> & HE)].
      * destruct k2 as [|d k2]; simpl in HE.
        -- apply (H3 a b); auto; [set_solver|]. rewrite <- HE. set_solver.
        -- injection HE as <- HE. apply (H1 L1 a L2 b k2); auto.
      * apply (H3 a b); auto; [set_solver|]. rewrite HE. set_solver.
  - apply (H2 k a L2 b L3); auto.
Qed.
Lemma lt_le a b c : lt a b = true -> lt c b = false -> lt a c = true.
Proof. intros H1 H2. destruct (lt a c) eqn:E; [done|]. by rewrite (sw_neg _ SW _ _ _ E H2) in H1. Qed.
Lemma le_lt a b c : lt b a = false -> lt b c = true -> lt a c = true.
Proof. intros H1 H2. destruct (lt a c) eqn:E; [done|]. by rewrite (sw_neg _ SW _ _ _ H1 E) in H2. Qed.
Lemma lt_irr a : lt a a = false.
Proof. destruct (lt a a) eqn:E; [|done]. by rewrite (sw_asym _ SW _ _ E) in E. Qed.

(* the end of insert, from line 122 on *)
Definition childkey (r : nat) (side : node X -> option nat) : M heap K :=
  x <- get r;; c <- need (side x);; xc <- get c;; lift (key xc).
Definition ins_tail (kn : K) (r : nat) : M heap nat :=
  update_height r;;;
  b <- balance_of r;;
  c1 <- (if (1 <? b)%Z then kc <- childkey r n_left;; ret (lt kn kc) else ret false);;
  if c1 : bool then rotate_right r else
  c2 <- (if (b <? -1)%Z then kc <- childkey r n_right;; ret (lt kc kn) else ret false);;
  if c2 : bool then rotate_left r else
  c3 <- (if (1 <? b)%Z then kc <- childkey r n_left;; ret (lt kc kn) else ret false);;
  if c3 : bool then double_right r else
  c4 <- (if (b <? -1)%Z then kc <- childkey r n_right;; ret (lt kn kc) else ret false);;
  if c4 : bool then double_left r else ret r.
Lemma insert_step fuel r nd h :
  insert_fuel key lt (S fuel) (Some r) nd h =
  (xn <- get nd;; kn <- lift (key xn);; xr <- get r;; kr <- lift (key xr);;
   (if lt kn kr then l <- insert_fuel key lt fuel (n_left xr) nd;; set_left r (Some l)
    else q <- insert_fuel key lt fuel (n_right xr) nd;; set_right r (Some q));;; ins_tail kn r) h.
Proof. reflexivity. Qed.

Definition grown (nd : nat) (t : tree) : Prop :=
  match t with
  | E => False
  | T a _ b => (nd ∈ inord a /\ depth a = S (depth b)) \/ (nd ∈ inord b /\ depth b = S (depth a))
  end.
Definition differ h (nd : nat) (kn : K) (L : list nat) : Prop :=
  forall n k, n ∈ L -> n <> nd -> kof h n k -> lt k kn = true \/ lt kn k = true.

Lemma childkey_l h p a c b r rr kc : rep h p (T (T a c b) r rr) -> kof h c kc -> childkey r n_left h = Val (h, kc).
Proof.
  intros ((x & Hx & Hp & Hl & Hr) & _) (y & Hy & Ky). unfold childkey.
  erewrite bind_val by (apply get_val; eauto). rewrite Hl. erewrite bind_val by apply need_val.
  erewrite bind_val by (apply get_val; eauto). rewrite Ky. done.
Qed.
Lemma childkey_r h p a c b r l kc : rep h p (T l r (T a c b)) -> kof h c kc -> childkey r n_right h = Val (h, kc).
Proof.
  intros ((x & Hx & Hp & Hl & Hr) & _) (y & Hy & Ky). unfold childkey.
  erewrite bind_val by (apply get_val; eauto). rewrite Hr. erewrite bind_val by apply need_val.
  erewrite bind_val by (apply get_val; eauto). rewrite Ky. done.
Qed.

Lemma ins_tail_spec h C l r rr nd kn :
  rep_ctx h C (Some r) -> rep h (ctx_parent C) (T l r rr) -> NoDup (ctx_ids C ++ inord (T l r rr)) ->
  cok h l -> cok h rr -> keyed h (inord (T l r rr)) -> incr h (inord (T l r rr)) -> kof h nd kn ->
  (depth l <= S (depth rr) \/ nd ∈ inord l) -> (depth rr <= S (depth l) \/ nd ∈ inord rr) ->
  exists h' m t', ins_tail kn r h = Val (h', m) /\ rootid t' = Some m /\ inord t' = inord (T l r rr) /\
    rep_ctx h' C (Some m) /\ rep h' (ctx_parent C) t' /\ same_data h h' /\ cok h' t' /\
    (forall k, k ∉ inord (T l r rr) -> cached h' k = cached h k) /\
    (depth l <= S (depth rr) -> depth rr <= S (depth l) -> t' = T l r rr) /\
    (depth l = 2 + depth rr -> avl l -> avl rr -> grown nd l -> differ h nd kn (inord l) -> avl t' /\ depth t' = depth l) /\
    (depth rr = 2 + depth l -> avl l -> avl rr -> grown nd rr -> differ h nd kn (inord rr) -> avl t' /\ depth t' = depth rr).
Proof.
  intros Rc R Hnd Cl Cr HK HI Hn Ql Qr. pose proof (NoDup_app_inv _ _ Hnd) as (NC & NT & ND).
  pose proof (NoDup_T _ _ _ NT) as (N1 & N2 & N3 & N4 & N5).
  unfold ins_tail. destruct (update_height_spec _ _ _ _ _ R NT) as (h1 & E1 & S1 & _).
  destruct (update_height_exact _ _ _ _ _ _ _ R NT E1) as (_ & F1 & C1). specialize (C1 Cl Cr).
  erewrite bind_val by exact E1.
  pose proof (rep_hsim _ _ _ _ S1 R) as R1. pose proof (rep_ctx_hsim _ _ _ _ S1 Rc) as Rc1.
  destruct (cok_T_parts _ _ _ _ C1) as [C1l C1r].
  destruct (balance_of_val h1 _ l r rr R1 NT C1l C1r) as (h2 & E2 & S2 & Cl2 & Cr2 & F2).
  erewrite bind_val by exact E2.
  pose proof (rep_hsim _ _ _ _ S2 R1) as R2. pose proof (rep_ctx_hsim _ _ _ _ S2 Rc1) as Rc2.
  pose proof (hsim_trans _ _ _ S1 S2) as S12. pose proof (hsim_same_data _ _ S12) as D2.
  pose proof (cok_same h1 h2 l r rr NT (F2 _ N3 N4) Cl2 Cr2 C1) as C2.
  assert (F12 : forall k, k ∉ inord (T l r rr) -> cached h2 k = cached h k).
  { intros k Hk. simpl in Hk. rewrite F2, F1; auto; clear - Hk; set_solver. }
  assert (K2 : forall n k, kof h n k -> kof h2 n k) by (intros n k; by apply (kof_same h h2)).
  clear E1 E2 S1 S2 F1 F2 R1 Rc1 C1 C1l C1r.
  destruct (1 <? zd l - zd rr)%Z eqn:B1.
  - (* left heavy *)
    assert (depth l > S (depth rr)) as Hd by (apply Z.ltb_lt in B1; unfold zd in B1; lia).
    assert (B2 : (zd l - zd rr <? -1)%Z = false) by (apply Z.ltb_ge; unfold zd; lia).
    destruct l as [|a c b]; [simpl in Hd; lia|].
    destruct (HK c) as [kc Hkc]; [apply in_l, in_root|].
    erewrite bind_val. 2:{ erewrite bind_val by (eapply childkey_l; [exact R2|by apply K2]). reflexivity. }
    rewrite B2. destruct Ql as [Ql|Ql]; [lia|].
    destruct (cok_T_parts _ _ _ _ Cl2) as [Ca Cb].
    assert (Hside : (nd ∈ inord a -> lt kc kn = false) /\ (nd ∈ inord b -> lt kn kc = false)).
    { cbn [inord] in HI. rewrite <- app_assoc in HI. split; intros Hin.
      - eapply (incr_app_x _ _ _ nd c kn kc HI); auto. clear; set_solver.
      - replace (inord a ++ (c :: inord b) ++ r :: inord rr) with ((inord a ++ [c]) ++ inord b ++ r :: inord rr) in HI by (by rewrite <- !app_assoc).
        eapply (incr_app_x _ _ _ c nd kc kn HI); auto; clear - Hin; set_solver. }
    destruct (lt kn kc) eqn:L1; cbv iota.
    + destruct (rotate_right_spec_exact h2 C a r b c rr Rc2 R2 Hnd) as (h3 & E3 & Rc3 & R3 & D3 & _ & F3 & C3).
      exists h3, c, (T a c (T b r rr)). split_and!; auto.
      * simpl; rewrite <- !app_assoc; done.
      * by eapply same_data_trans.
      * intros k Hk. rewrite F3; auto.
      * intros; exfalso; lia.
      * intros Hd2 (A1 & A2 & A3 & A4) Ar [[G1 G2]|[G1 G2]] HD; [|exfalso; destruct Hside as [_ Hs]; specialize (Hs G1); congruence].
        cbn [avl depth] in *. split_and!; auto; lia.
      * intros; exfalso; simpl in *; lia.
    + erewrite bind_val by reflexivity. cbv iota.
      erewrite bind_val. 2:{ erewrite bind_val by (eapply childkey_l; [exact R2|by apply K2]). reflexivity. }
      destruct (lt kc kn) eqn:L2; cbv iota.
      * destruct b as [|lba q lbb].
        { exfalso. cbn [inord] in Ql. apply elem_of_app in Ql as [Ql|Ql]; [destruct Hside as [Hs _]; specialize (Hs Ql); congruence|].
          apply elem_of_list_singleton in Ql as ->. pose proof (kof_fun _ _ _ _ Hn Hkc) as ->. by rewrite lt_irr in L2. }
        destruct (cok_T_parts _ _ _ _ Cb).
        destruct (double_right_spec h2 C a c lba q lbb r rr Rc2 R2 Hnd) as (h3 & E3 & Rc3 & R3 & D3 & F3 & C3).
        exists h3, q, (T (T a c lba) q (T lbb r rr)). split_and!; auto.
        -- simpl. rewrite <- !app_assoc. simpl. rewrite <- !app_assoc. done.
        -- by eapply same_data_trans.
        -- intros k Hk. rewrite F3; auto.
        -- intros; exfalso; lia.
        -- intros Hd2 (A1 & A2 & A3 & A4) Ar [[G1 G2]|[G1 G2]] HD; [exfalso; destruct Hside as [Hs _]; specialize (Hs G1); congruence|].
           cbn [avl depth] in *. destruct_and?. split_and!; auto; lia.
        -- intros; exfalso; simpl in *; lia.
      * erewrite bind_val by reflexivity. cbv iota. exists h2, r, (T (T a c b) r rr). split_and!; auto.
        -- intros Hd2 (A1 & A2 & A3 & A4) Ar G HD. exfalso. destruct (HD c kc) as [?|?]; auto; try congruence; [apply in_root|].
           intros ->. destruct (NoDup_T _ _ _ N1) as (_ & _ & Z1 & Z2 & _). destruct G as [[G _]|[G _]]; auto.
        -- intros; exfalso; simpl in *; lia.
  - erewrite bind_val by reflexivity. cbv iota. destruct (zd l - zd rr <? -1)%Z eqn:B2.
    + (* right heavy *)
      assert (depth rr > S (depth l)) as Hd by (apply Z.ltb_lt in B2; unfold zd in B2; lia).
      destruct rr as [|a c b]; [simpl in Hd; lia|].
      destruct (HK c) as [kc Hkc]; [apply in_r, in_root|].
      erewrite bind_val. 2:{ erewrite bind_val by (eapply childkey_r; [exact R2|by apply K2]). reflexivity. }
      destruct Qr as [Qr|Qr]; [lia|].
      destruct (cok_T_parts _ _ _ _ Cr2) as [Ca Cb].
      assert (Hside : (nd ∈ inord a -> lt kc kn = false) /\ (nd ∈ inord b -> lt kn kc = false)).
      { cbn [inord] in HI. rewrite app_comm_cons, app_assoc in HI. split; intros Hin.
        - eapply (incr_app_x _ _ _ nd c kn kc HI); auto; clear - Hin; set_solver.
        - replace ((inord l ++ r :: inord a) ++ c :: inord b) with ((inord l ++ (r :: inord a) ++ [c]) ++ inord b) in HI by (by rewrite <- !app_assoc).
          eapply (incr_app_x _ _ _ c nd kc kn HI); auto; clear - Hin; set_solver. }
      destruct (lt kc kn) eqn:L1; cbv iota.
      * destruct (rotate_left_spec_exact h2 C l r a c b Rc2 R2 Hnd) as (h3 & E3 & Rc3 & R3 & D3 & _ & F3 & C3).
        exists h3, c, (T (T l r a) c b). split_and!; auto.
        -- simpl; rewrite <- !app_assoc; done.
        -- by eapply same_data_trans.
        -- intros k Hk. rewrite F3; auto.
        -- intros; exfalso; lia.
        -- intros; exfalso; simpl in *; lia.
        -- intros Hd2 Al (A1 & A2 & A3 & A4) [[G1 G2]|[G1 G2]] HD; [exfalso; destruct Hside as [Hs _]; specialize (Hs G1); congruence|].
           cbn [avl depth] in *. split_and!; auto; lia.
      * erewrite bind_val by reflexivity. cbv iota.
        erewrite bind_val. 2:{ erewrite bind_val by (eapply childkey_r; [exact R2|by apply K2]). reflexivity. }
        destruct (lt kn kc) eqn:L2; cbv iota.
        -- destruct a as [|raa q rab].
           { exfalso. cbn [inord app] in Qr. apply elem_of_cons in Qr as [->|Qr]; [|destruct Hside as [_ Hs]; specialize (Hs Qr); congruence].
             pose proof (kof_fun _ _ _ _ Hn Hkc) as ->. by rewrite lt_irr in L2. }
           destruct (cok_T_parts _ _ _ _ Ca).
           destruct (double_left_spec h2 C l r raa q rab c b Rc2 R2 Hnd) as (h3 & E3 & Rc3 & R3 & D3 & F3 & C3).
           exists h3, q, (T (T l r raa) q (T rab c b)). split_and!; auto.
           ++ simpl. rewrite <- !app_assoc. simpl. rewrite <- ?app_assoc. done.
           ++ by eapply same_data_trans.
           ++ intros k Hk. rewrite F3; auto.
           ++ intros; exfalso; lia.
           ++ intros; exfalso; simpl in *; lia.
           ++ intros Hd2 Al (A1 & A2 & A3 & A4) [[G1 G2]|[G1 G2]] HD; [|exfalso; destruct Hside as [_ Hs]; specialize (Hs G1); congruence].
              cbn [avl depth] in *. destruct_and?. split_and!; auto; lia.
        -- exists h2, r, (T l r (T a c b)). split_and!; auto.
           ++ intros; exfalso; simpl in *; lia.
           ++ intros Hd2 Al (A1 & A2 & A3 & A4) G HD. exfalso. destruct (HD c kc) as [?|?]; auto; try congruence; [apply in_root|].
              intros ->. destruct (NoDup_T _ _ _ N2) as (_ & _ & Z1 & Z2 & _). destruct G as [[G _]|[G _]]; auto.
    + erewrite bind_val by reflexivity. cbv iota. erewrite bind_val by reflexivity. cbv iota. erewrite bind_val by reflexivity. cbv iota.
      apply Z.ltb_ge in B1, B2. unfold zd in B1, B2.
      exists h2, r, (T l r rr). split_and!; auto; intros; exfalso; lia.
Qed.

Lemma attach_left h C r rr o p t : rep_ctx h (CL C r rr) o -> rep h p t -> NoDup (ctx_ids C ++ inord (T t r rr)) ->
  exists h', set_left r (rootid t) h = Val (h', tt) /\ rep_ctx h' C (Some r) /\ rep h' (ctx_parent C) (T t r rr) /\
    same_data h h' /\ (forall k, cached h' k = cached h k).
Proof.
  intros ((x & Hx & Hp & Hl & Hr) & Rr & Rc) Rt Hnd. apply NoDup_app_inv in Hnd as (NC & NT & ND).
  apply NoDup_T in NT as (N1 & N2 & N3 & N4 & N5). simpl in ND.
  destruct (set_left_spec h r x t p Hx Rt N3 N1) as (h' & E1 & Hr' & Rt' & F & D & _).
  exists h'. split; [done|]. split; [|split; [|split; [done|intros k; by eapply cached_set_left]]].
  - eapply rep_ctx_frame; [|exact Rc]. intros n Hn. apply F; clear - ND Hn; set_solver.
  - split; [eexists; split; [exact Hr'|]; simpl; auto|]. split; [done|]. eapply rep_frame; [|exact Rr].
    intros n Hn. apply F; clear - N4 N5 Hn; set_solver.
Qed.
Lemma attach_right h C r l o p t : rep_ctx h (CR l r C) o -> rep h p t -> NoDup (ctx_ids C ++ inord (T l r t)) ->
  exists h', set_right r (rootid t) h = Val (h', tt) /\ rep_ctx h' C (Some r) /\ rep h' (ctx_parent C) (T l r t) /\
    same_data h h' /\ (forall k, cached h' k = cached h k).
Proof.
  intros ((x & Hx & Hp & Hl & Hr) & Rr & Rc) Rt Hnd. apply NoDup_app_inv in Hnd as (NC & NT & ND).
  apply NoDup_T in NT as (N1 & N2 & N3 & N4 & N5). simpl in ND.
  destruct (set_right_spec h r x t p Hx Rt N4 N2) as (h' & E1 & Hr' & Rt' & F & D & _).
  exists h'. split; [done|]. split; [|split; [|split; [done|intros k; by eapply cached_set_right]]].
  - eapply rep_ctx_frame; [|exact Rc]. intros n Hn. apply F; clear - ND Hn; set_solver.
  - split; [eexists; split; [exact Hr'|]; simpl; auto|]. split; [|done]. eapply rep_frame; [|exact Rr].
    intros n Hn. apply F; clear - N3 N5 Hn; set_solver.
Qed.

Lemma incr_insert h nd kn L1 L2 : incr h (L1 ++ L2) -> kof h nd kn ->
  (forall n k, n ∈ L1 -> kof h n k -> lt kn k = false) -> (forall n k, n ∈ L2 -> kof h n k -> lt kn k = true) ->
  incr h (L1 ++ nd :: L2).
Proof.
  intros HI Hn H1 H2. apply incr_app.
  - by eapply incr_app_l.
  - change (nd :: L2) with ([nd] ++ L2). apply incr_app.
    + intros M1 a M2 b M3 ka kb HE. exfalso. apply (f_equal length) in HE. rewrite !app_length in HE. simpl in HE. rewrite app_length in HE. simpl in HE. lia.
    + by eapply incr_app_r.
    + intros a b ka kb Ha%elem_of_list_singleton Hb Hka Hkb. subst a. pose proof (kof_fun _ _ _ _ Hka Hn) as ->. apply sw_asym; eauto.
  - intros a b ka kb Ha Hb Hka Hkb. apply elem_of_cons in Hb as [->|Hb].
    + pose proof (kof_fun _ _ _ _ Hkb Hn) as ->. eauto.
    + eapply incr_app_x; eauto.
Qed.

Lemma insert_fuel_spec fuel h C t nd xn kn :
  rep_ctx h C (rootid t) -> rep h (ctx_parent C) t -> NoDup (ctx_ids C ++ inord t) -> nd ∉ ctx_ids C ++ inord t ->
  h !! nd = Some xn -> n_left xn = None -> n_right xn = None -> key xn = Val kn -> cok h (leaf nd) ->
  keyed h (inord t) -> incr h (inord t) -> cok h t -> depth t <= fuel -> avl t -> differ h nd kn (inord t) ->
  exists h' m t' L1 L2 o p, insert_fuel key lt fuel (rootid t) nd h = Val (h', m) /\ rootid t' = Some m /\
    rep_ctx h' C o /\ rep h' p t' /\ same_data h h' /\ inord t = L1 ++ L2 /\ inord t' = L1 ++ nd :: L2 /\
    (forall n k, n ∈ L1 -> kof h n k -> lt kn k = false) /\ (forall n k, n ∈ L2 -> kof h n k -> lt kn k = true) /\
    cok h' t' /\ (forall q, q ∉ inord t -> q <> nd -> cached h' q = cached h q) /\
    p = (if t then n_parent xn else ctx_parent C) /\
    avl t' /\ (depth t' = depth t \/ (depth t' = S (depth t) /\ (t = E \/ grown nd t'))).
Proof.
  revert fuel h C. induction t as [|l IHl r rr IHr]; intros fuel h C Rc R Hnd Hfresh Hxn Hnl Hnr Hkn Cn HK HI Ct Hd Av HD.
  { exists h, nd, (leaf nd), [], [], None, (n_parent xn). split; [by destruct fuel|]. split; [done|]. split; [done|].
    split; [simpl; eauto 10|]. split; [done|]. split; [done|]. split; [done|]. split; [set_solver|]. split; [set_solver|].
    split; [done|]. split; [done|]. split; [done|]. split; [simpl; lia|]. right. simpl. auto. }
  destruct fuel as [|fuel]; [simpl in Hd; lia|]. simpl in Hd.
  cbn [rootid]. rewrite insert_step. erewrite bind_val by (apply get_val; exact Hxn).
  rewrite Hkn. erewrite bind_val by reflexivity.
  pose proof R as ((x & Hx & Hp & Hl & Hr) & Rl & Rr). erewrite bind_val by (apply get_val; exact Hx).
  destruct (HK r) as [kr Hkr]; [apply in_root|].
  assert (key x = Val kr) as Kx. { destruct Hkr as (x' & Hx' & Kx). congruence. }
  rewrite Kx. erewrite bind_val by reflexivity.
  assert (Hkn' : kof h nd kn) by (exists xn; auto).
  pose proof (NoDup_app_inv _ _ Hnd) as (NC & NT & ND). pose proof (NoDup_T _ _ _ NT) as (N1 & N2 & N3 & N4 & N5).
  destruct Av as (A1 & A2 & A3 & A4). destruct (cok_T_parts _ _ _ _ Ct) as [Cl Cr].
  assert (Nr : nd <> r) by (clear - Hfresh; simpl in Hfresh; set_solver).
  assert (NdC : nd ∉ ctx_ids C) by (clear - Hfresh; set_solver).
  destruct (lt kn kr) eqn:Ek; cbv iota.
  - assert (RcL : rep_ctx h (CL C r rr) (rootid l)) by (simpl; eauto 10).
    assert (NL : NoDup (ctx_ids (CL C r rr) ++ inord l)). { eapply NoDup_perm; [|exact Hnd]. simpl. solve_Permutation. }
    assert (FL : nd ∉ ctx_ids (CL C r rr) ++ inord l) by (clear - Hfresh; simpl in *; set_solver).
    destruct (IHl fuel h (CL C r rr) RcL Rl NL FL Hxn Hnl Hnr Hkn Cn) as
      (h1 & m1 & l' & L1 & L2 & o & p & E1 & Hm & Rc1 & R1 & D1 & HE1 & HE2 & HL1 & HL2 & C1 & F1 & _ & Av1 & Dp1).
    { intros n Hn. by apply HK, in_l. }
    { simpl in HI. by eapply incr_app_l. }
    { done. } { lia. } { done. }
    { intros n k Hn. by apply HD, in_l. }
    assert (Nl' : NoDup (ctx_ids C ++ inord (T l' r rr))).
    { apply (NoDup_perm _ (nd :: ctx_ids C ++ inord (T l r rr))); [|by apply NoDup_cons].
      cbn [inord]. rewrite HE1, HE2. solve_Permutation. }
    destruct (attach_left h1 C r rr o p l' Rc1 R1 Nl') as (h2 & E2 & Rc2 & R2 & D2 & F2).
    rewrite Hl. erewrite bind_val. 2:{ erewrite bind_val by exact E1. rewrite <- Hm. exact E2. }
    pose proof (same_data_trans _ _ _ D1 D2) as D12.
    assert (K12 : forall n k, kof h n k <-> kof h2 n k) by (intros; by apply kof_same).
    assert (HE : inord (T l' r rr) = L1 ++ nd :: (L2 ++ r :: inord rr)) by (cbn [inord]; rewrite HE2; lsolve).
    assert (HE0 : inord (T l r rr) = L1 ++ (L2 ++ r :: inord rr)) by (cbn [inord]; rewrite HE1; lsolve).
    assert (HG : forall n k, n ∈ L2 ++ r :: inord rr -> kof h n k -> lt kn k = true).
    { intros n k [Hn|Hn]%elem_of_app Hk; [eauto|]. apply elem_of_cons in Hn as [->|Hn].
      - pose proof (kof_fun _ _ _ _ Hk Hkr) as ->. done.
      - apply (lt_le _ kr); [done|]. cbn [inord] in HI. apply incr_app_r in HI. change (r :: inord rr) with ([r] ++ inord rr) in HI.
        eapply (incr_app_x _ _ _ r n kr k HI); auto. by apply elem_of_list_singleton. }
    assert (I2 : incr h2 (inord (T l' r rr))).
    { apply (incr_same h); [done|]. rewrite HE. apply (incr_insert _ _ kn); auto. by rewrite <- HE0. }
    assert (KD2 : keyed h2 (inord (T l' r rr))).
    { apply (keyed_same h); [done|]. intros n Hn. rewrite HE in Hn. apply elem_of_app in Hn as [Hn|Hn].
      - apply HK. rewrite HE0. by apply elem_of_app; left.
      - apply elem_of_cons in Hn as [->|Hn]; [eauto|]. apply HK. rewrite HE0. by apply elem_of_app; right. }
    assert (Cl2 : cok h2 l') by (eapply cok_frame; [|exact C1]; auto).
    assert (Cr2 : cok h2 rr).
    { eapply cok_frame; [|exact Cr]. intros n Hn. rewrite F2. apply F1; [clear - N5 Hn; set_solver|].
      intros ->. apply Hfresh. apply elem_of_app; right. by apply in_r. }
    assert (Hin : nd ∈ inord l') by (rewrite HE2; clear; set_solver).
    destruct (ins_tail_spec h2 C l' r rr nd kn Rc2 R2 Nl' Cl2 Cr2 KD2 I2) as
      (h3 & m3 & t3 & E3 & Hm3 & HE3 & Rc3 & R3 & D3 & C3 & F3 & P1 & P2 & P3).
    { by apply K12. } { by right. } { left. destruct Dp1 as [Hq|[Hq _]]; lia. }
    exists h3, m3, t3, L1, (L2 ++ r :: inord rr), (Some m3), (ctx_parent C).
    split; [done|]. split; [done|]. split; [done|]. split; [done|]. split; [by eapply same_data_trans|].
    split; [done|]. split; [by rewrite HE3|]. split; [done|]. split; [done|]. split; [done|].
    split. { intros q Hq Hq'. rewrite F3, F2, F1; auto.
      - intros Hq2. apply Hq. by apply in_l.
      - rewrite HE. rewrite HE0 in Hq. clear - Hq Hq'. set_solver. }
    split; [done|].
    assert (HD2 : differ h2 nd kn (inord l')).
    { intros n k Hn Hne Hk%K12. apply (HD n k); auto. apply in_l. rewrite HE1. rewrite HE2 in Hn. clear - Hn Hne. set_solver. }
    destruct (decide (depth l' <= S (depth rr))) as [Hb|Hb].
    + rewrite P1 by (destruct Dp1 as [Hq|[Hq _]]; lia). cbn [avl depth]. split; [split_and!; auto; destruct Dp1 as [Hq|[Hq _]]; lia|].
      destruct Dp1 as [->|[Hdp _]]; [auto|]. destruct (decide (depth l = depth rr)) as [He|He]; [|left; lia].
      right. split; [lia|]. right. left. split; [done|]. lia.
    + destruct Dp1 as [Hdp|[Hdp [->|Hg]]]; [lia|simpl in *; lia|].
      destruct P2 as [Q1 Q2]; auto; [lia|]. split; [done|]. left. rewrite Q2. cbn [depth]. lia.
  - assert (RcR : rep_ctx h (CR l r C) (rootid rr)) by (simpl; eauto 10).
    assert (NL : NoDup (ctx_ids (CR l r C) ++ inord rr)). { eapply NoDup_perm; [|exact Hnd]. simpl. solve_Permutation. }
    assert (FL : nd ∉ ctx_ids (CR l r C) ++ inord rr) by (clear - Hfresh; simpl in *; set_solver).
    destruct (IHr fuel h (CR l r C) RcR Rr NL FL Hxn Hnl Hnr Hkn Cn) as
      (h1 & m1 & r' & L1 & L2 & o & p & E1 & Hm & Rc1 & R1 & D1 & HE1 & HE2 & HL1 & HL2 & C1 & F1 & _ & Av1 & Dp1).
    { intros n Hn. by apply HK, in_r. }
    { simpl in HI. apply incr_app_r in HI. change (r :: inord rr) with ([r] ++ inord rr) in HI. by eapply incr_app_r. }
    { done. } { lia. } { done. }
    { intros n k Hn. by apply HD, in_r. }
    assert (Nr' : NoDup (ctx_ids C ++ inord (T l r r'))).
    { apply (NoDup_perm _ (nd :: ctx_ids C ++ inord (T l r rr))); [|by apply NoDup_cons].
      cbn [inord]. rewrite HE1, HE2. solve_Permutation. }
    destruct (attach_right h1 C r l o p r' Rc1 R1 Nr') as (h2 & E2 & Rc2 & R2 & D2 & F2).
    rewrite Hr. erewrite bind_val. 2:{ erewrite bind_val by exact E1. rewrite <- Hm. exact E2. }
    pose proof (same_data_trans _ _ _ D1 D2) as D12.
    assert (K12 : forall n k, kof h n k <-> kof h2 n k) by (intros; by apply kof_same).
    assert (HE : inord (T l r r') = (inord l ++ r :: L1) ++ nd :: L2) by (cbn [inord]; rewrite HE2; lsolve).
    assert (HE0 : inord (T l r rr) = (inord l ++ r :: L1) ++ L2) by (cbn [inord]; rewrite HE1; lsolve).
    assert (HG : forall n k, n ∈ inord l ++ r :: L1 -> kof h n k -> lt kn k = false).
    { intros n k [Hn|Hn]%elem_of_app Hk.
      - apply (sw_neg _ SW _ kr); [done|]. cbn [inord] in HI. eapply (incr_app_x _ _ _ n r k kr HI); auto. clear; set_solver.
      - apply elem_of_cons in Hn as [->|Hn]; [|eauto]. pose proof (kof_fun _ _ _ _ Hk Hkr) as ->. done. }
    assert (I2 : incr h2 (inord (T l r r'))).
    { apply (incr_same h); [done|]. rewrite HE. apply (incr_insert _ _ kn); auto. by rewrite <- HE0. }
    assert (KD2 : keyed h2 (inord (T l r r'))).
    { apply (keyed_same h); [done|]. intros n Hn. rewrite HE in Hn. apply elem_of_app in Hn as [Hn|Hn].
      - apply HK. rewrite HE0. by apply elem_of_app; left.
      - apply elem_of_cons in Hn as [->|Hn]; [eauto|]. apply HK. rewrite HE0. by apply elem_of_app; right. }
    assert (Cr2 : cok h2 r') by (eapply cok_frame; [|exact C1]; auto).
    assert (Cl2 : cok h2 l).
    { eapply cok_frame; [|exact Cl]. intros n Hn. rewrite F2. apply F1; [clear - N5 Hn; set_solver|].
      intros ->. apply Hfresh. apply elem_of_app; right. by apply in_l. }
    assert (Hin : nd ∈ inord r') by (rewrite HE2; clear; set_solver).
    destruct (ins_tail_spec h2 C l r r' nd kn Rc2 R2 Nr' Cl2 Cr2 KD2 I2) as
      (h3 & m3 & t3 & E3 & Hm3 & HE3 & Rc3 & R3 & D3 & C3 & F3 & P1 & P2 & P3).
    { by apply K12. } { left. destruct Dp1 as [Hq|[Hq _]]; lia. } { by right. }
    exists h3, m3, t3, (inord l ++ r :: L1), L2, (Some m3), (ctx_parent C).
    split; [done|]. split; [done|]. split; [done|]. split; [done|]. split; [by eapply same_data_trans|].
    split; [done|]. split; [by rewrite HE3|]. split; [done|]. split; [done|]. split; [done|].
    split. { intros q Hq Hq'. rewrite F3, F2, F1; auto.
      - intros Hq2. apply Hq. by apply in_r.
      - rewrite HE. rewrite HE0 in Hq. clear - Hq Hq'. set_solver. }
    split; [done|].
    assert (HD2 : differ h2 nd kn (inord r')).
    { intros n k Hn Hne Hk%K12. apply (HD n k); auto. apply in_r. rewrite HE1. rewrite HE2 in Hn. clear - Hn Hne. set_solver. }
    destruct (decide (depth r' <= S (depth l))) as [Hb|Hb].
    + rewrite P1 by (destruct Dp1 as [Hq|[Hq _]]; lia). cbn [avl depth]. split; [split_and!; auto; destruct Dp1 as [Hq|[Hq _]]; lia|].
      destruct Dp1 as [->|[Hdp _]]; [auto|]. destruct (decide (depth l = depth rr)) as [He|He]; [|left; lia].
      right. split; [lia|]. right. right. split; [done|]. lia.
    + destruct Dp1 as [Hdp|[Hdp [->|Hg]]]; [lia|simpl in *; lia|].
      destruct P3 as [Q1 Q2]; auto; [lia|]. split; [done|]. left. rewrite Q2. cbn [depth]. lia.
Qed.
End Insert.
