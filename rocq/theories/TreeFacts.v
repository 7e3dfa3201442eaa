(* TreeFacts.v -- the tree lemmas in the form used by the properties. *)
From stdpp Require Import base list sets.
From Coq Require Import ZArith Lia.
From Verif Require Import Arith Geom Monad Tree Heapq HeapqProofs EventOrder TreeProofs TreeOps TreeSearch Beach.

Section TreeFacts.
Context {X : Type}.
Notation heap := (list (node X)).

Lemma nodup_plug C t : NoDup (inord (plug C t)) -> NoDup (ctx_ids C ++ inord t).
Proof. intros H. eapply NoDup_perm; [|exact H]. symmetry. apply plug_ids. Qed.

Lemma rotations_preserve (h : heap) t z x : rep h None t -> NoDup (inord t) -> z ∈ inord t -> h !! z = Some x ->
  (forall y, n_right x = Some y -> exists h' t', rotate_left z h = Val (h', y) /\ rep h' None t' /\ inord t' = inord t /\ map n_data h' = map n_data h) /\
  (forall y, n_left x = Some y -> exists h' t', rotate_right z h = Val (h', y) /\ rep h' None t' /\ inord t' = inord t /\ map n_data h' = map n_data h).
Proof.
  intros R Hnd Hz Hx. destruct (in_plug t z Hz) as (C & l & r & ->).
  pose proof (nodup_plug _ _ Hnd) as Hnd'. apply rep_plug in R as [Rc R]. cbn [rootid] in Rc.
  pose proof R as ((x' & Hx' & _ & Hl & Hr) & _). assert (x' = x) as -> by congruence.
  split; intros y Hy.
  - destruct r as [|b y' c]; [simpl in Hr; congruence|]. assert (y' = y) as -> by (cbn [rootid] in Hr; congruence).
    destruct (rotate_left_spec h C l z b y c Rc R Hnd') as (h' & E & Rc' & R' & Sd & _).
    exists h', (plug C (T (T l z b) y c)). split; [done|]. split; [by apply rep_plug|]. split; [|done].
    rewrite !inord_plug. simpl. repeat (rewrite <- !app_assoc; simpl). done.
  - destruct l as [|a y' b]; [simpl in Hl; congruence|]. assert (y' = y) as -> by (cbn [rootid] in Hl; congruence).
    destruct (rotate_right_spec h C a z b y r Rc R Hnd') as (h' & E & Rc' & R' & Sd & _).
    exists h', (plug C (T a y (T b z r))). split; [done|]. split; [by apply rep_plug|]. split; [|done].
    rewrite !inord_plug. simpl. repeat (rewrite <- !app_assoc; simpl). done.
Qed.

Lemma balance_preserves (h : heap) t z : rep h None t -> NoDup (inord t) -> z ∈ inord t ->
  (exists h' m t', balance z h = Val (h', m) /\ rep h' None t' /\ inord t' = inord t /\ map n_data h' = map n_data h) /\
  (exists h' m t', balance_and_propagate z h = Val (h', m) /\ rootid t' = Some m /\ rep h' None t' /\ inord t' = inord t /\ map n_data h' = map n_data h).
Proof.
  intros R Hnd Hz. destruct (in_plug t z Hz) as (C & l & r & ->).
  pose proof (nodup_plug _ _ Hnd) as Hnd'. split.
  - apply rep_plug in R as [Rc R]. cbn [rootid] in Rc.
    destruct (balance_spec h C l z r Rc R Hnd') as (h' & m & t' & E & Hr & Hi & Rc' & R' & Sd & _).
    exists h', m, (plug C t'). split; [done|]. split; [apply rep_plug; by rewrite Hr|]. split; [|done].
    by rewrite !inord_plug, Hi.
  - destruct (balance_and_propagate_spec h C (T l z r) z R eq_refl Hnd) as (h' & m & t' & E & Hr & Hi & R' & Sd & _).
    exists h', m, t'. done.
Qed.

(* leaves left to right around the hole *)
Fixpoint lv_l (C : ctx) : list nat := match C with Top => [] | CL C _ _ => lv_l C | CR l _ C => lv_l C ++ leaves l end.
Fixpoint lv_r (C : ctx) : list nat := match C with Top => [] | CL C _ r => leaves r ++ lv_r C | CR _ _ C => lv_r C end.
Lemma leaves_full_app l n r : full l -> full r -> leaves (T l n r) = leaves l ++ leaves r.
Proof. intros Fl Fr. apply leaves_T. by apply full_nonempty. Qed.
Lemma leaves_plug C t : full_ctx C -> full t -> leaves (plug C t) = lv_l C ++ leaves t ++ lv_r C.
Proof.
  revert t. induction C as [|C IH n r|l n C IH]; simpl; intros t FC Ft; [by rewrite app_nil_r| |].
  - destruct FC as [Fr FC]. rewrite IH by (auto; by apply full_T). rewrite leaves_full_app by done. by rewrite <- !app_assoc.
  - destruct FC as [Fl FC]. rewrite IH by (auto; by apply full_T). rewrite leaves_full_app by done. by rewrite <- !app_assoc.
Qed.
Lemma first_leaf_head t d : full t -> head (leaves t) = Some (first_leaf t d).
Proof.
  revert d. induction t as [|l IHl n r IHr]; [done|]. intros d Hf.
  destruct (full_node _ _ _ Hf) as [[-> ->]|(Fl & Fr & Nl & Nr)]; [done|].
  rewrite leaves_T by done. simpl. specialize (IHl n Fl). destruct (leaves l); [done|]. exact IHl.
Qed.
Lemma last_leaf_last t d : full t -> last (leaves t) = Some (last_leaf t d).
Proof.
  revert d. induction t as [|l IHl n r IHr]; [done|]. intros d Hf.
  destruct (full_node _ _ _ Hf) as [[-> ->]|(Fl & Fr & Nl & Nr)]; [done|].
  rewrite leaves_T by done. simpl. specialize (IHr n Fr). rewrite last_app, IHr. done.
Qed.
Lemma ctx_succ_head C : full_ctx C -> ctx_succ C = head (lv_r C).
Proof.
  induction C as [|C IH n r|l n C IH]; simpl; [done| |].
  - intros [Fr FC]. destruct r as [|a k b]; [done|]. pose proof (first_leaf_head _ k Fr) as H. symmetry.
    destruct (leaves (T a k b)); [done|]. exact H.
  - intros [Fl FC]. auto.
Qed.
Lemma ctx_pred_last C : full_ctx C -> ctx_pred C = last (lv_l C).
Proof.
  induction C as [|C IH n r|l n C IH]; simpl; [done| |].
  - intros [Fr FC]. auto.
  - intros [Fr FC]. destruct l as [|a k b]; [done|]. pose proof (last_leaf_last _ k Fr) as H.
    rewrite last_app, H. done.
Qed.
Lemma leaves_sub t : leaves t `sublist_of` inord t.
Proof.
  induction t as [|l IHl n r IHr]; [done|]. destruct l as [|a b c].
  - destruct r as [|a b c]; [done|]. simpl in *. by apply sublist_cons.
  - rewrite leaves_T by done. simpl inord. apply sublist_app; [done|]. by apply sublist_cons.
Qed.
Lemma nodup_sub (l k : list nat) : l `sublist_of` k -> NoDup k -> NoDup l.
Proof. intros H Hk. apply sublist_submseteq, submseteq_Permutation in H as [m Hm]. rewrite Hm in Hk. by apply NoDup_app in Hk as [? _]. Qed.
Lemma neighbours (h : heap) t K1 n K2 : rep h None t -> NoDup (inord t) -> full t -> leaves t = K1 ++ n :: K2 ->
  successor n h = Val (h, head K2) /\ predecessor n h = Val (h, last K1).
Proof.
  intros R Hnd Hf HL. destruct (leaf_plug t n Hf) as (C & -> & FC).
  { rewrite HL. set_solver. }
  pose proof (leaves_plug C (leaf n) FC (full_leaf n)) as HP. rewrite HL in HP.
  assert (Hnd' : NoDup (K1 ++ n :: K2)). { rewrite <- HL. eapply nodup_sub; [apply leaves_sub|exact Hnd]. }
  change (leaves (leaf n) ++ lv_r C) with (n :: lv_r C) in HP.
  destruct (nodup_pos _ _ _ _ _ Hnd' HP) as [-> ->].
  rewrite <- ctx_succ_head, <- ctx_pred_last by done. split; [by apply successor_leaf_spec|by apply predecessor_leaf_spec].
Qed.

(* ---------- find_leaf_node ---------- *)
Section Key.
Context (A : Arith) (TO : TotalOrder A) (key : node X -> result (D A)).
Definition keyval (h : heap) (n : nat) (k : D A) : Prop := exists x, h !! n = Some x /\ key x = Val k.

Lemma before_split t m L1 L2 : full t -> NoDup (inord t) -> m ∈ leaves t -> inord t = L1 ++ m :: L2 ->
  (forall n, n ∈ L1 -> n ∈ internals t -> n ∈ before t m) /\ (forall n, n ∈ L2 -> n ∈ internals t -> n ∈ after t m).
Proof.
  revert L1 L2. induction t as [|l IHl n r IHr]; [done|]. intros L1 L2 Hf Hnd Hm HE.
  destruct (full_node _ _ _ Hf) as [[-> ->]|(Fl & Fr & Nl & Nr)]; [simpl; set_solver|].
  destruct (NoDup_T _ _ _ Hnd) as (N1 & N2 & Nnl & Nnr & Nd).
  rewrite before_T, after_T, internals_T by done. rewrite leaves_T in Hm by done. simpl in HE, Hnd.
  destruct (decide (m ∈ leaves l)) as [Hml|Hml].
  - pose proof (leaves_inord _ _ Hml) as Hmi. apply elem_of_list_split in Hmi as (P & Q & EP). 
    rewrite EP, <- app_assoc in HE. simpl in HE.
    assert (HP : P = L1 /\ Q ++ n :: inord r = L2).
    { eapply nodup_pos; [|exact HE]. rewrite EP, <- app_assoc in Hnd. exact Hnd. }
    destruct HP as [<- <-]. destruct (IHl P Q Fl N1 Hml EP) as [I1 I2]. split.
    + intros k Hk. intros [Hi|[->|Hi]%elem_of_cons]%elem_of_app; [auto| |].
      * exfalso. apply Nnl. rewrite EP. set_solver.
      * exfalso. apply internals_inord in Hi. apply (Nd k); [rewrite EP; set_solver|done].
    + intros k Hk Hi. apply elem_of_app in Hi as [Hi|Hi]; [|apply elem_of_app; by right].
      apply elem_of_app. left. apply I2; [|done]. apply elem_of_app in Hk as [Hk|[->|Hk]%elem_of_cons]; [done| |].
      * exfalso. apply internals_inord in Hi. done.
      * exfalso. apply internals_inord in Hi. by apply (Nd k).
  - assert (Hmr : m ∈ leaves r) by (apply elem_of_app in Hm as [?|?]; done).
    pose proof (leaves_inord _ _ Hmr) as Hmi. apply elem_of_list_split in Hmi as (P & Q & EP).
    assert (HP : (inord l ++ n :: P) = L1 /\ Q = L2).
    { eapply nodup_pos.
      - rewrite EP in Hnd. rewrite <- app_assoc. exact Hnd.
      - rewrite <- app_assoc. simpl. rewrite <- EP. exact HE. }
    destruct HP as [<- <-]. destruct (IHr P Q Fr N2 Hmr EP) as [I1 I2]. split.
    + intros k Hk Hi. apply elem_of_app in Hi as [Hi|[->|Hi]%elem_of_cons]; [set_solver|set_solver|].
      apply elem_of_app. right. right. apply I1; [|done].
      apply elem_of_app in Hk as [Hk|[->|Hk]%elem_of_cons]; [|by apply internals_inord in Hi|done].
      exfalso. apply internals_inord in Hi. by apply (Nd k).
    + intros k Hk Hi. apply I2; [done|]. assert (Hkr : k ∈ inord r) by (rewrite EP; set_solver).
      apply elem_of_app in Hi as [Hi|[->|Hi]%elem_of_cons]; [|done|done].
      exfalso. apply internals_inord in Hi. by apply (Nd k).
Qed.

Lemma node_cases t n : full t -> n ∈ inord t -> n ∈ internals t \/ n ∈ leaves t.
Proof.
  intros Hf Hn. induction t as [|l IHl m r IHr]; [simpl in Hn; set_solver|]. simpl in Hn. destruct (full_node _ _ _ Hf) as [[-> ->]|(Fl & Fr & Nl & Nr)].
  - right. simpl in *. set_solver.
  - rewrite internals_T, leaves_T by done. apply elem_of_app in Hn as [Hn|[->|Hn]%elem_of_cons].
    + destruct (IHl Fl Hn); [left|right]; set_solver.
    + left. set_solver.
    + destruct (IHr Fr Hn); [left|right]; set_solver.
Qed.

Lemma find_leaf_brackets (h : heap) t k :
  rep h None t -> full t -> NoDup (inord t) ->
  (forall n, n ∈ inord t -> exists kn, keyval h n kn) ->
  (forall L1 a L2 b L3 ka kb, internals t = L1 ++ a :: L2 ++ b :: L3 -> keyval h a ka -> keyval h b kb -> dltb A kb ka = false) ->
  exists m L1 L2, find_leaf_node key (dltb A) (deqb A) (rootid t) k h = Val (h, Some m) /\ m ∈ leaves t /\ inord t = L1 ++ m :: L2 /\
    (forall n kn, n ∈ L1 -> n ∈ internals t -> keyval h n kn -> dltb A k kn = false) /\
    (forall n kn, n ∈ L2 -> n ∈ internals t -> keyval h n kn -> dltb A kn k = false).
Proof.
  intros R Hf Hnd HK Hsort.
  pose proof (find_leaf_node_spec key (dltb A) (deqb A) (fun _ => False) h None t k R Hf Hnd) as HS.
  feed specialize HS.
  { intros n x e Hn Hx He. destruct (HK n Hn) as (kn & x' & H1 & H2). congruence. }
  destruct (find_leaf_node key (dltb A) (deqb A) (rootid t) k h) as [[h' o]|]; [|done]. destruct HS as [-> (m & -> & Hfd)].
  pose proof (found_leaf key (dltb A) (deqb A) h k t m Hf Hfd) as Hm.
  assert (HB : Forall (key_rel key h (fun kx => dltb A k kx = false)) (before t m) /\
    Forall (key_rel key h (fun kx => deqb A k kx = true \/ dltb A k kx = true)) (after t m)).
  { refine (found_brackets key (dltb A) (deqb A) h (fun a b => dltb A b a = false) k t m Hf Hnd _ _ _ _ _ Hfd).
  { intros L1 a L2 b L3 E. destruct (HK a) as (ka & x & Hx & Hkx); [apply internals_inord; rewrite E; set_solver|].
    destruct (HK b) as (kb & y & Hy & Hky); [apply internals_inord; rewrite E; set_solver|].
    exists x, ka, y, kb. do 4 (split; [done|]). eapply Hsort; eauto; eexists; eauto. }
  { intros a b He Hab. rewrite d_eq_iff in He by done. destruct He as [He _]. eapply d_le_trans; eauto. }
  { intros a b He Hlt Hab. eapply d_le_trans; eauto. }
  { intros b He Hlt. done. }
  { intros a b Ha Hab. destruct (deqb A k b) eqn:Eb; [auto|]. right.
    destruct (dltb A k b) eqn:Ekb; [done|]. exfalso.
    assert (Hak : dltb A a k = false).
    { destruct Ha as [Ha|Ha]; [apply d_eq_iff in Ha; [tauto|done]|by apply d_asym]. }
    assert (Hbk : dltb A b k = false) by (eapply d_le_trans; eauto).
    assert (deqb A k b = true) by (apply d_eq_iff; auto). congruence. } }
  destruct HB as [HB HA].
  pose proof (leaves_inord _ _ Hm) as Hmi. apply elem_of_list_split in Hmi as (L1 & L2 & E).
  destruct (before_split t m L1 L2 Hf Hnd Hm E) as [S1 S2].
  exists m, L1, L2. split; [done|]. split; [done|]. split; [done|]. split.
  - intros n kn Hn Hi (x & Hx & Hkx). specialize (S1 n Hn Hi). rewrite Forall_forall in HB.
    destruct (HB n S1) as (x' & kx & H1 & H2 & H3). congruence.
  - intros n kn Hn Hi (x & Hx & Hkx). specialize (S2 n Hn Hi). rewrite Forall_forall in HA.
    destruct (HA n S2) as (x' & kx & H1 & H2 & H3). assert (kx = kn) as -> by congruence.
    destruct H3 as [H3|H3]; [apply d_eq_iff in H3; [tauto|done]|by apply d_asym].
Qed.
End Key.
End TreeFacts.
