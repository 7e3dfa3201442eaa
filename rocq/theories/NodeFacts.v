(* NodeFacts.v -- Tree.insert and Tree.delete on whole trees, and histories of insertions. *)
From stdpp Require Import base list sets sorting.
From Coq Require Import ZArith Lia.
From Verif Require Import Arith Monad Tree TreeProofs TreeOps TreeAvl TreeInsert TreeDelete.
Local Open Scope monad_scope.

(* ---------- vocabulary of the statements ---------- *)
Inductive subtree (s : tree) : tree -> Prop :=
| sub_here : subtree s s
| sub_left l n r : subtree s l -> subtree s (T l n r)
| sub_right l n r : subtree s r -> subtree s (T l n r).
(* the heights of the two children of every node differ by at most one *)
Definition balanced (t : tree) : Prop :=
  forall l n r, subtree (T l n r) t -> depth l <= S (depth r) /\ depth r <= S (depth l).
(* a cached height is the height of the subtree *)
Definition heights_right {X} (h : list (node X)) (t : tree) : Prop :=
  forall l n r x k, subtree (T l n r) t -> h !! n = Some x -> n_height x = Some k -> k = depth (T l n r).
(* the keys of the nodes of t from left to right *)
Definition keys_in {X K} (key : node X -> result K) (h : list (node X)) (t : tree) (ks : list K) : Prop :=
  Forall2 (fun n k => exists x, h !! n = Some x /\ key x = Val k) (inord t) ks.
Definition increasing {K} (lt : K -> K -> bool) (ks : list K) : Prop :=
  StronglySorted (fun a b => lt a b = true) ks.
Definition same_key {K} (lt : K -> K -> bool) (a b : K) : Prop := lt a b = false /\ lt b a = false.

Lemma avl_balanced t : avl t <-> balanced t.
Proof.
  split.
  - induction t as [|l IHl n r IHr]; intros A a m b Hs; [by inversion Hs|]. destruct A as (A1 & A2 & A3 & A4).
    inversion Hs; subst; [done|by eapply IHl|by eapply IHr].
  - induction t as [|l IHl n r IHr]; intros B; [done|]. destruct (B l n r (sub_here _)). split_and!; auto.
    + apply IHl. intros a m b Hs. apply (B a m b). by apply sub_left.
    + apply IHr. intros a m b Hs. apply (B a m b). by apply sub_right.
Qed.

Lemma sorted_app {K} (lt : K -> K -> bool) (ks1 ks2 : list K) : increasing lt (ks1 ++ ks2) <->
  increasing lt ks1 /\ increasing lt ks2 /\ (forall a b, a ∈ ks1 -> b ∈ ks2 -> lt a b = true).
Proof.
  unfold increasing. induction ks1 as [|k ks1 IH]; simpl.
  - split; [|tauto]. intros H. split; [constructor|]. split; [done|]. intros a b Ha. set_solver.
  - split.
    + intros H. apply StronglySorted_inv in H as [H1 H2]. apply IH in H1 as (Q1 & Q2 & Q3). rewrite Forall_app in H2.
      destruct H2 as [H2 H3]. split; [by constructor|]. split; [done|]. intros a b Ha Hb.
      apply elem_of_cons in Ha as [->|Ha]; [|auto]. rewrite Forall_forall in H3. auto.
    + intros (H1 & H2 & H3). apply StronglySorted_inv in H1 as [H1 H4]. constructor.
      * apply IH. split_and!; auto. intros a b Ha. apply H3. set_solver.
      * apply Forall_app. split; [done|]. apply Forall_forall. intros b Hb. apply H3; set_solver.
Qed.

Section Facts.
Context {X K : Type} (key : node X -> result K) (lt : K -> K -> bool) (SW : StrictWeak lt).
Context (key_data : forall x y, n_data x = n_data y -> key x = key y).
Notation heap := (list (node X)).
Implicit Types h : heap.

Lemma cok_right h t : cok h t <-> heights_right h t.
Proof.
  split.
  - induction t as [|l IHl n r IHr]; intros A a m b x k Hs Hx Hk; [by inversion Hs|]. destruct A as (A1 & A2 & A3).
    inversion Hs; subst; [|eapply IHl; eauto|eapply IHr; eauto]. apply A1. unfold cached. by rewrite Hx.
  - induction t as [|l IHl n r IHr]; intros B; [done|]. cbn [cok]. split_and!.
    + intros k Hk. unfold cached in Hk. destruct (h !! n) as [x|] eqn:Ex; [|done]. eapply (B l n r x k); eauto. apply sub_here.
    + apply IHl. intros a m b x k Hs. apply (B a m b x k). by apply sub_left.
    + apply IHr. intros a m b x k Hs. apply (B a m b x k). by apply sub_right.
Qed.

Lemma keys_kof h t ks n : keys_in key h t ks -> n ∈ inord t -> exists k, kof key h n k /\ k ∈ ks.
Proof.
  intros HK (i & Hi)%elem_of_list_lookup. destruct (Forall2_lookup_l _ _ _ _ _ HK Hi) as (k & Hk & Hx).
  exists k. split; [exact Hx|]. by eapply elem_of_list_lookup_2.
Qed.
Lemma keys_kof' h t ks k : keys_in key h t ks -> k ∈ ks -> exists n, kof key h n k /\ n ∈ inord t.
Proof.
  intros HK (i & Hi)%elem_of_list_lookup. destruct (Forall2_lookup_r _ _ _ _ _ HK Hi) as (n & Hn & Hx).
  exists n. split; [exact Hx|]. by eapply elem_of_list_lookup_2.
Qed.
Lemma keys_split h L ks L1 L2 : Forall2 (kof key h) L ks -> L = L1 ++ L2 ->
  exists ks1 ks2, ks = ks1 ++ ks2 /\ Forall2 (kof key h) L1 ks1 /\ Forall2 (kof key h) L2 ks2.
Proof. intros HK ->. apply Forall2_app_inv_l in HK as (k1 & k2 & ? & ? & ->). eauto. Qed.

Lemma sincr_of_sorted h L ks : Forall2 (kof key h) L ks -> increasing lt ks -> sincr key lt h L.
Proof.
  intros HK HS L1 a L2 b L3 ka kb -> Ha Hb.
  apply Forall2_app_inv_l in HK as (k1 & k2 & _ & HK & ->). apply Forall2_cons_inv_l in HK as (ka' & k3 & Ha' & HK & ->).
  apply Forall2_app_inv_l in HK as (k4 & k5 & _ & HK & ->). apply Forall2_cons_inv_l in HK as (kb' & k6 & Hb' & HK & ->).
  pose proof (kof_fun _ _ _ _ _ Ha Ha') as <-. pose proof (kof_fun _ _ _ _ _ Hb Hb') as <-.
  apply sorted_app in HS as (_ & HS & _). apply StronglySorted_inv in HS as [_ HS]. rewrite Forall_forall in HS. apply HS. set_solver.
Qed.
Lemma incr_of_sincr h L : sincr key lt h L -> incr key lt h L.
Proof. intros H L1 a L2 b L3 ka kb HE Ha Hb. apply (sw_asym _ SW). eapply H; eauto. Qed.

Theorem insert_spec h root t ks nd x k :
  rep h None t -> root = rootid t -> NoDup (inord t) -> keys_in key h t ks -> increasing lt ks -> balanced t -> heights_right h t ->
  h !! nd = Some x -> nd ∉ inord t -> n_left x = None -> n_right x = None -> n_parent x = None -> n_height x = None ->
  key x = Val k -> (forall k', k' ∈ ks -> ~ same_key lt k k') ->
  exists h' root' t' ks1 ks2, insert key lt root nd h = Val (h', root') /\
    rep h' None t' /\ Some root' = rootid t' /\ NoDup (inord t') /\ ks = ks1 ++ ks2 /\
    keys_in key h' t' (ks1 ++ k :: ks2) /\ increasing lt (ks1 ++ k :: ks2) /\ inord t' ≡ₚ nd :: inord t /\
    balanced t' /\ heights_right h' t' /\ map n_data h' = map n_data h.
Proof.
  intros R -> Hnd HK HS HB HH Hx Hf Hl Hr Hp Hh Hk HD.
  pose proof (rep_depth _ _ _ R Hnd) as Hdep.
  assert (Cx : cok h (leaf nd)). { simpl. split; [|done]. intros j. unfold cached. rewrite Hx. simpl. rewrite Hh. done. }
  destruct (insert_fuel_spec key lt SW key_data (S (length h)) h Top t nd x k) as
    (h' & m & t' & L1 & L2 & o & p & E1 & Hm & _ & R' & D' & HE1 & HE2 & HL1 & HL2 & C' & _ & Hpp & Av & _); auto; try done.
  { intros n Hn. destruct (keys_kof _ _ _ _ HK Hn) as (kn & ? & _). eauto. }
  { apply incr_of_sincr. by apply (sincr_of_sorted h _ ks). }
  all: try by apply cok_right. all: try by apply avl_balanced.
  { intros n kn Hn Hne Hkn. destruct (keys_kof _ _ _ _ HK Hn) as (kn' & Hkn' & Hin). pose proof (kof_fun _ _ _ _ _ Hkn Hkn') as <-.
    specialize (HD kn Hin). unfold same_key in HD. destruct (lt kn k), (lt k kn); auto. }
  destruct (keys_split h _ ks L1 L2 HK HE1) as (ks1 & ks2 & -> & K1 & K2).
  exists h', m, t', ks1, ks2. split; [exact E1|].
  assert (p = None) as ->. { rewrite Hpp. by destruct t. }
  assert (HP : inord t' ≡ₚ nd :: inord t) by (rewrite HE1, HE2; solve_Permutation).
  split; [done|]. split; [done|]. split; [rewrite HP; by apply NoDup_cons|]. split; [done|].
  assert (Hkd : kof key h nd k) by (exists x; auto).
  split.
  { assert (Hkk : forall n kk, kof key h n kk -> kof key h' n kk) by (intros n kk; by apply kof_same).
    unfold keys_in. rewrite HE2. apply Forall2_app.
    - eapply Forall2_impl; [exact K1|]. exact Hkk.
    - constructor; [by apply Hkk|]. eapply Forall2_impl; [exact K2|]. exact Hkk. }
  split.
  { apply sorted_app in HS as (S1 & S2 & S3). 
    assert (B1 : forall a, a ∈ ks1 -> lt a k = true).
    { intros a Ha. destruct (elem_of_list_lookup_1 _ _ Ha) as [i Hi]. destruct (Forall2_lookup_r _ _ _ _ _ K1 Hi) as (n & Hn & Hkn).
      pose proof (HL1 n a (elem_of_list_lookup_2 _ _ _ Hn) Hkn) as Q. destruct (lt a k) eqn:Ea; [done|].
      exfalso. apply (HD a); [set_solver|]. split; auto. }
    assert (B2 : forall a, a ∈ ks2 -> lt k a = true).
    { intros a Ha. destruct (elem_of_list_lookup_1 _ _ Ha) as [i Hi]. destruct (Forall2_lookup_r _ _ _ _ _ K2 Hi) as (n & Hn & Hkn).
      exact (HL2 n a (elem_of_list_lookup_2 _ _ _ Hn) Hkn). }
    apply sorted_app. split; [done|]. split.
    - constructor; [done|]. by apply Forall_forall.
    - intros a b Ha Hb. apply elem_of_cons in Hb as [->|Hb]; auto. }
  split; [done|]. split; [by apply avl_balanced|]. split; [by apply cok_right|done].
Qed.

Theorem delete_spec h root t ks k :
  rep h None t -> root = rootid t -> NoDup (inord t) -> keys_in key h t ks -> increasing lt ks -> balanced t -> heights_right h t ->
  (* a key that is not there: nothing is removed *)
  ((forall k', k' ∈ ks -> ~ same_key lt k k') ->
     exists h' t', delete key lt root k h = Val (h', rootid t') /\ rep h' None t' /\ NoDup (inord t') /\ inord t' = inord t /\
       balanced t' /\ heights_right h' t' /\ map n_data h' = map n_data h) /\
  (forall L1 n L2 x k', inord t = L1 ++ n :: L2 -> h !! n = Some x -> key x = Val k' -> same_key lt k k' ->
     (* a node with two children: AttributeError *)
     (n_left x <> None -> n_right x <> None -> delete key lt root k h = Raise AttributeError) /\
     (* another node: that node leaves the tree; if it was the root, the new root keeps it as parent *)
     (n_left x = None \/ n_right x = None ->
        exists h' t', delete key lt root k h = Val (h', rootid t') /\ rep h' (if decide (root = Some n) then Some n else None) t' /\
          NoDup (inord t') /\ inord t' = L1 ++ L2 /\ balanced t' /\ heights_right h' t' /\ map n_data h' = map n_data h)).
Proof.
  intros R -> Hnd HK HS HB HH. pose proof (rep_depth _ _ _ R Hnd) as Hdep.
  destruct (delete_fuel_spec key lt SW (S (length h)) h Top t k) as [DA DB]; auto; try done.
  { intros n Hn. destruct (keys_kof _ _ _ _ HK Hn) as (kn & ? & _). eauto. }
  { by apply (sincr_of_sorted h _ ks). }
  { by apply cok_right. } { by apply avl_balanced. }
  assert (Hpar : forall p t', (t' = E \/ p = None) -> rep h p t' -> rep h None t').
  { intros p t' [->| ->]; done. }
  split.
  - intros Hno. assert (Hnh : forall n, n ∈ inord t -> ~ hits key lt h k n).
    { intros n Hn (kn & Hkn & Q1 & Q2). destruct (keys_kof _ _ _ _ HK Hn) as (kn' & Hkn' & Hin).
      pose proof (kof_fun _ _ _ _ _ Hkn Hkn') as <-. apply (Hno kn); [done|split; auto]. }
    destruct DB as (h' & t' & o & p & E1 & _ & R' & D' & [_ DD] & HP & C' & _ & Av & _ & Hpp).
    { intros n x Hn Hh. exfalso. by eapply Hnh. }
    exists h', t'. split; [exact E1|]. destruct Hpp as [(r & Hr & Hh & _)|(_ & -> & _)].
    { exfalso. apply (Hnh r); auto. destruct t; [done|]. injection Hr as ->. apply in_root. }
    rewrite DD by done. split_and!; auto; [by apply avl_balanced|by apply cok_right].
  - intros L1 n L2 x k' HE Hx Hk Hs.
    assert (Hn : n ∈ inord t) by (rewrite HE; set_solver).
    assert (Hh : hits key lt h k n) by (exists k'; split; [exists x; auto|exact Hs]).
    assert (Hu : forall m, m ∈ inord t -> hits key lt h k m -> m = n).
    { intros m Hm (km & Hkm & Q1 & Q2). destruct (decide (m = n)) as [|Hne]; [done|]. exfalso. destruct Hs as [T1 T2].
      assert (Hkn : kof key h n k') by (exists x; auto).
      pose proof (sincr_of_sorted h _ ks HK HS) as SI. rewrite HE in Hm. apply elem_of_app in Hm as [Hm|Hm].
      - rewrite HE in SI. pose proof (sincr_app_x key lt _ _ _ m n km k' SI Hm ltac:(set_solver) Hkm Hkn) as Hlt.
        by rewrite (sw_neg _ SW _ _ _ Q2 T1) in Hlt.
      - apply elem_of_cons in Hm as [->|Hm]; [done|]. replace (inord t) with ((L1 ++ [n]) ++ L2) in SI by (rewrite HE; lsolve).
        pose proof (sincr_app_x key lt _ _ _ n m k' km SI ltac:(set_solver) Hm Hkn Hkm) as Hlt.
        by rewrite (sw_neg _ SW _ _ _ T2 Q1) in Hlt. }
    split; [intros Y1 Y2; exact (DA n x Hn Hh Hx Y1 Y2)|].
    intros Hone. destruct DB as (h' & t' & o & p & E1 & _ & R' & D' & [DD _] & (L0 & HP) & C' & _ & Av & _ & Hpp).
    { intros m y Hm Hhm Hy. pose proof (Hu m Hm Hhm) as ->. rewrite Hx in Hy. by injection Hy as <-. }
    destruct (DD n Hn Hh) as (M1 & M2 & HM1 & HM2).
    assert (M1 = L1 /\ M2 = L2) as [-> ->].
    { rewrite HE in HM1. rewrite HE in Hnd. apply NoDup_app in Hnd as (_ & Nn & Nn2). apply NoDup_cons in Nn2 as [Nn2 _].
      apply app_eq_inv in HM1 as [(q & -> & HM1)|(q & -> & HM1)]; destruct q as [|c q]; simpl in HM1; injection HM1.
      - intros ->. by rewrite app_nil_r.
      - intros -> <-. exfalso. apply (Nn n); set_solver.
      - intros ->. by rewrite app_nil_r.
      - intros -> <-. exfalso. apply Nn2. set_solver. }
    exists h', t'. split; [exact E1|].
    assert (NoDup (inord t')) as Nt'. { assert (NoDup (inord t' ++ L0)) as Q by (by rewrite HP). by apply NoDup_app in Q as [? _]. }
    split.
    { destruct Hpp as [(r & Hr & Hhr & ->)|(Hnr & -> & Ho)].
      - assert (r = n) as ->. { apply Hu; [|done]. destruct t; [done|]. injection Hr as ->. apply in_root. }
        rewrite decide_True by done. done.
      - destruct (decide _) as [Hr|Hr]; [|done]. exfalso. by apply (Hnr n). }
    split_and!; auto; [by apply avl_balanced|by apply cok_right].
Qed.
End Facts.

(* ---------- histories ---------- *)
Section History.
Context {K : Type} (lt : K -> K -> bool) (SW : StrictWeak lt).
(* tree/node.py:30-31 get_key of a plain Node is its data *)
Definition node_key (x : node K) : result K := Val (n_data x).
(* root = None; for k in ks: root = Tree.insert(root, Node(k)) *)
Fixpoint insert_keys (root : option nat) (ks : list K) : M (list (node K)) (option nat) :=
  match ks with
  | [] => ret root
  | k :: ks => nd <- new_node k;; r <- insert node_key lt root nd;; insert_keys (Some r) ks
  end.

Lemma rep_app (h h' : list (node K)) p t : rep h p t -> rep (h ++ h') p t.
Proof.
  revert p. induction t as [|l IHl n r IHr]; intros p; [done|]. intros ((x & Hx & HH) & Rl & Rr). split; [|auto].
  exists x. split; [|done]. by apply lookup_app_l_Some.
Qed.

Definition all_different (ks : list K) : Prop := forall i j a b, i <> j -> ks !! i = Some a -> ks !! j = Some b -> ~ same_key lt a b.

Lemma all_diff_cons k ks : all_different (k :: ks) -> all_different ks /\ forall k', k' ∈ ks -> ~ same_key lt k k'.
Proof.
  intros H. split.
  - intros i j a b Hij Ha Hb. apply (H (S i) (S j) a b); auto.
  - intros k' (i & Hi)%elem_of_list_lookup. apply (H 0 (S i)); auto.
Qed.

Lemma all_diff_cons' k ks : all_different ks -> (forall k', k' ∈ ks -> ~ same_key lt k k') -> all_different (k :: ks).
Proof.
  intros H1 H2 i j a b Hij Ha Hb. destruct i as [|i], j as [|j]; simpl in *; [done| | |].
  - injection Ha as <-. apply H2. by eapply elem_of_list_lookup_2.
  - injection Hb as <-. intros [Q1 Q2]. apply (H2 a); [by eapply elem_of_list_lookup_2|by split].
  - apply (H1 i j); auto.
Qed.
Lemma all_diff_perm ks ks' : ks ≡ₚ ks' -> all_different ks -> all_different ks'.
Proof.
  induction 1 as [|k l l' HP IH|k1 k2 l|l1 l2 l3 H1 IH1 H2 IH2]; [done| | |auto].
  - intros [Q1 Q2]%all_diff_cons. apply all_diff_cons'; [auto|]. intros k'. rewrite <- HP. auto.
  - intros [Q1 Q2]%all_diff_cons. apply all_diff_cons in Q1 as [Q1 Q3]. apply all_diff_cons'; [apply all_diff_cons'; [done|]|].
    + intros k' Hk'. apply Q2. set_solver.
    + intros k' [->|Hk']%elem_of_cons; [|auto]. intros [S1 S2]. apply (Q2 k1); [set_solver|by split].
Qed.
Lemma insert_keys_spec ks : forall (h : list (node K)) t sorted,
  rep h None t -> NoDup (inord t) -> keys_in node_key h t sorted -> increasing lt sorted -> balanced t -> heights_right h t ->
  all_different (ks ++ sorted) ->
  exists h' t' sorted', insert_keys (rootid t) ks h = Val (h', rootid t') /\ rep h' None t' /\ NoDup (inord t') /\
    keys_in node_key h' t' sorted' /\ increasing lt sorted' /\ sorted' ≡ₚ ks ++ sorted /\ balanced t' /\ heights_right h' t'.
Proof.
  induction ks as [|k ks IH]; intros h t sorted R Hnd HK HS HB HH HD.
  - exists h, t, sorted. split; [done|]. split_and!; auto.
  - cbn [insert_keys]. erewrite bind_val by reflexivity.
    set (x := mkNode k None None None None). set (h1 := h ++ [x]).
    assert (Hx : h1 !! length h = Some x) by (unfold h1; rewrite lookup_app_r by done; by rewrite Nat.sub_diag).
    assert (Hlt : forall n, n ∈ inord t -> n < length h).
    { intros n Hn. destruct (rep_lookup _ _ _ _ R Hn) as [y Hy]. by eapply lookup_lt_Some. }
    assert (Hsame : forall n, n ∈ inord t -> h1 !! n = h !! n) by (intros n Hn; unfold h1; rewrite lookup_app_l; auto).
    apply all_diff_cons in HD as HD'. destruct HD' as [HD1 HD2].
    destruct (insert_spec node_key lt SW) with (h := h1) (root := rootid t) (t := t) (ks := sorted) (nd := length h) (x := x) (k := k)
      as (h2 & r & t2 & ks1 & ks2 & E2 & R2 & Hr2 & Hnd2 & -> & HK2 & HS2 & HP2 & HB2 & HH2 & _); auto.
    { intros a b Hab. unfold node_key. by rewrite Hab. }
    { by apply rep_app. }
    { unfold keys_in in *. apply Forall2_same_length_lookup_2; [by eapply Forall2_length|].
      intros i n kk Hn Hkk. destruct (Forall2_lookup_lr _ _ _ _ _ _ HK Hn Hkk) as (y & Hy & Ky). exists y. split; [|done].
      rewrite Hsame; [done|]. by eapply elem_of_list_lookup_2. }
    { intros l n rr y j Hs Hy. rewrite Hsame in Hy; [by eapply HH|]. clear - Hs. induction Hs; [apply in_root|by apply in_l|by apply in_r]. }
    { intros Hin. specialize (Hlt _ Hin). lia. }
    { intros k' Hk'. apply HD2. set_solver. }
    erewrite bind_val by exact E2. rewrite Hr2.
    destruct (IH h2 t2 (ks1 ++ k :: ks2)) as (h3 & t3 & s3 & E3 & R3 & Hnd3 & HK3 & HS3 & HP3 & HB3 & HH3); auto.
    { apply (all_diff_perm (k :: ks ++ ks1 ++ ks2)); [|done]. solve_Permutation. }
    exists h3, t3, s3. split; [exact E3|]. split_and!; auto. rewrite HP3. solve_Permutation.
Qed.
End History.
