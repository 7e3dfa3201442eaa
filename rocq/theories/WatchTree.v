(* WatchTree.v -- the status tree as text and as a graph. *)
From stdpp Require Import base list sets.
From Coq Require Import ZArith Lia String.
From Verif Require Import Arith Geom Monad Tree Heapq State Sweep Finish TreeProofs SweepBase Spec Beach Dcel SweepInv SweepLoop SweepFacts Visual VisualReal VisualEdges Watch SpecWatch.
Local Open Scope monad_scope.

Section WT.
Context (A : Arith).
Implicit Types s : state A.

Lemma nodes_get s n x : s_nodes s !! n = Some x -> nodes_do (get_at n) s = Val (s, x).
Proof. intros H. unfold nodes_do, zoom, get_at. rewrite H. by destruct s. Qed.

(* every node of t has a label *)
Definition labelled s (t : tree) : Prop := forall n x, n ∈ inord t -> s_nodes s !! n = Some x -> get_label A (n_data x) s = Val (s, shown_at A s n).

Lemma labelled_site s n x p y : s_nodes s !! n = Some x -> site A s n = Some p -> s_points s !! p = Some y -> get_label A (n_data x) s = Val (s, shown_at A s n).
Proof.
  intros Hx Hs Hp. pose proof Hs as Hs'. apply site_inv in Hs' as (nd & a & ar & H1 & H2 & _ & H4 & <-). assert (nd = x) as -> by congruence. rewrite H2. cbn [get_label].
  unfold bind at 1. rewrite (arcs_get s a ar H4). unfold bind at 1. rewrite (points_get' s _ y Hp). unfold shown_at. rewrite Hs. simpl. unfold name_at. rewrite Hp. done.
Qed.
Lemma labelled_label s n x p q y z : s_nodes s !! n = Some x -> label A s n = Some (p, q) -> s_points s !! p = Some y -> s_points s !! q = Some z ->
  get_label A (n_data x) s = Val (s, shown_at A s n).
Proof.
  intros Hx Hl Hp Hq. pose proof Hl as Hl'. unfold label, bpid in Hl'. rewrite Hx in Hl'. simpl in Hl'. destruct (n_data x) as [a|b] eqn:Ed; [done|]. simpl in Hl'.
  destruct (s_bps s !! b) as [w|] eqn:Eb; [|done]. simpl in Hl'. injection Hl' as E1 E2. cbn [get_label].
  unfold bind at 1. rewrite (bps_get' s b w Eb). unfold bind at 1. rewrite E1, (points_get' s p y Hp). unfold bind at 1. rewrite E2, (points_get' s q z Hq).
  assert (Hn : site A s n = None) by (unfold site, arcid; rewrite Hx; simpl; by rewrite Ed). unfold shown_at. rewrite Hn, Hl. unfold name_at. rewrite Hp, Hq. done.
Qed.

(* ---------- text ---------- *)
(* the lines, from top to bottom: depth and node *)
Fixpoint lines (d : nat) (t : tree) : list (nat * nat) :=
  match t with E => [] | T l n r => lines (S d) r ++ (d, n) :: lines (S d) l end.
Lemma lines_nodes d t : map snd (lines d t) = rev (inord t).
Proof. revert d. induction t as [|l IHl n r IHr]; intros d; [done|]. cbn. rewrite map_app. cbn. rewrite IHl, IHr, rev_app_distr. cbn. by rewrite <- app_assoc. Qed.
Lemma concat_app (l k : list string) : concat_all (l ++ k) = (concat_all l ++ concat_all k)%string.
Proof. induction l as [|x l IH]; [done|]. change (x ++ concat_all (l ++ k) = (x ++ concat_all l) ++ concat_all k)%string. rewrite IH. clear. induction x as [|c x IH]; [done|]. cbn. by rewrite IH. Qed.
Lemma str_app_nil (x : string) : (x ++ "")%string = x.
Proof. induction x as [|c x IH]; [done|]. cbn. by rewrite IH. Qed.
Lemma visualize_val s t : forall fuel d p n, rep (s_nodes s) p t -> rootid t = Some n -> labelled s t -> TreeProofs.depth t <= fuel ->
  visualize_fuel A fuel d n s = Val (s, concat_all (map (fun x => text_line A s (fst x) (snd x)) (lines d t))).
Proof.
  induction t as [|l IHl m r IHr]; intros fuel d p n; [done|]. intros ((x & Hx & _ & Hl & Hr) & Rl & Rr) [= <-] HL HF.
  destruct fuel as [|fuel]; [cbn in HF; lia|]. cbn in HF. cbn [visualize_fuel]. unfold bind at 1. rewrite (nodes_get s m x Hx).
  assert (Er : match n_right x with Some k => visualize_fuel A fuel (S d) k | None => ret ""%string end s = Val (s, concat_all (map (fun x => text_line A s (fst x) (snd x)) (lines (S d) r)))).
  { rewrite Hr. destruct r as [|rl rm rr]; [done|]. cbn [rootid]. eapply IHr; [exact Rr|done| |lia]. intros k y Hk. apply HL. cbn [inord]. set_solver. }
  assert (El : match n_left x with Some k => visualize_fuel A fuel (S d) k | None => ret ""%string end s = Val (s, concat_all (map (fun x => text_line A s (fst x) (snd x)) (lines (S d) l)))).
  { rewrite Hl. destruct l as [|ll lm lr]; [done|]. cbn [rootid]. eapply IHl; [exact Rl|done| |lia]. intros k y Hk. apply HL. cbn [inord]. set_solver. }
  unfold bind at 1. rewrite Er. unfold bind at 1. rewrite (HL m x) by (cbn; set_solver || done). unfold bind at 1. rewrite El. cbn [lines]. rewrite fmap_app, (concat_app (_ <$> _) (_ <$> _)). done.
Qed.
Lemma lines_level s t : forall c d n k, rep (s_nodes s) None (plug c t) -> s_root s = rootid (plug c t) -> ctx_depth c = d -> (k, n) ∈ lines d t -> level A s n k.
Proof.
  induction t as [|l IHl m r IHr]; intros c d n k HR HE Hd; [by intros ?%elem_of_nil|]. cbn [lines].
  assert (HM : level A s m d).
  { clear IHl IHr n k. revert d l m r HR HE Hd. induction c as [|c IH j rr|ll j c IH]; intros d l m r HR HE Hd; cbn in *.
    - subst d. apply level_root. exact HE.
    - subst d. apply (rep_plug _ c (T (T l m r) j rr)) in HR as HR'. destruct HR' as [_ (_ & ((x & Hx & Hp & _) & _) & _)]. eapply level_child; [exact Hx|exact Hp|]. eapply (IH _ (T l m r) j rr); eauto.
    - subst d. apply (rep_plug _ c (T ll j (T l m r))) in HR as HR'. destruct HR' as [_ (_ & _ & ((x & Hx & Hp & _) & _))]. eapply level_child; [exact Hx|exact Hp|]. eapply (IH _ ll j (T l m r)); eauto. }
  intros [H|[[= -> ->]|H]%elem_of_cons]%elem_of_app; [|exact HM|].
  - eapply (IHr (CR l m c) (S d)); [exact HR|exact HE|cbn; lia|exact H].
  - eapply (IHl (CL c m r) (S d)); [exact HR|exact HE|cbn; lia|exact H].
Qed.

(* ---------- graph ---------- *)
(* nodes in the order in which they are drawn *)
Fixpoint preorder (t : tree) : list nat := match t with E => [] | T l n r => n :: preorder l ++ preorder r end.
Lemma preorder_perm t : preorder t ≡ₚ inord t.
Proof. induction t as [|l IHl n r IHr]; [done|]. cbn. rewrite IHl, IHr. by rewrite Permutation_middle. Qed.
Lemma preorder_root t n : rootid t = Some n -> preorder t !! 0 = Some n.
Proof. destruct t; [done|]. by intros [= ->]. Qed.
Definition size (t : tree) : nat := List.length (preorder t).
Fixpoint calls s (par : option nat) (nx : nat) (t : tree) : list gcall :=
  match t with
  | E => []
  | T l n r => (GNode nx (shown_at A s n) :: match par with Some p => [GEdge p nx] | None => [] end) ++ calls s (Some nx) (S nx) l ++ calls s (Some nx) (S nx + size l) r
  end.
Lemma graph_val s t : forall fuel par nx p n, rep (s_nodes s) p t -> rootid t = Some n -> labelled s t -> TreeProofs.depth t <= fuel ->
  graph_fuel A fuel par nx n s = Val (s, (calls s par nx t, nx + size t)).
Proof.
  induction t as [|l IHl m r IHr]; intros fuel par nx p n; [done|]. intros ((x & Hx & _ & Hl & Hr) & Rl & Rr) [= <-] HL HF.
  destruct fuel as [|fuel]; [cbn in HF; lia|]. cbn in HF. cbn [graph_fuel]. unfold bind at 1. rewrite (nodes_get s m x Hx). unfold bind at 1. rewrite (HL m x) by (cbn; set_solver || done).
  assert (El : match n_left x with Some k => graph_fuel A fuel (Some nx) (S nx) k | None => ret ([], S nx) end s = Val (s, (calls s (Some nx) (S nx) l, S nx + size l))).
  { rewrite Hl. destruct l as [|ll lm lr]; [unfold size; cbn; by rewrite Nat.add_0_r|]. cbn [rootid]. eapply IHl; [exact Rl|done| |lia]. intros k y Hk. apply HL. cbn [inord]. set_solver. }
  unfold bind at 1. rewrite El. cbn [fst snd].
  assert (Er : match n_right x with Some k => graph_fuel A fuel (Some nx) (S nx + size l) k | None => ret ([], S nx + size l) end s = Val (s, (calls s (Some nx) (S nx + size l) r, S nx + size l + size r))).
  { rewrite Hr. destruct r as [|rl rm rr]; [unfold size; cbn; by rewrite Nat.add_0_r|]. cbn [rootid]. eapply IHr; [exact Rr|done| |lia]. intros k y Hk. apply HL. cbn [inord]. set_solver. }
  unfold bind at 1. rewrite Er. cbn [fst snd calls]. unfold ret. do 3 f_equal. unfold size. cbn. rewrite app_length. lia.
Qed.

(* m is a child of n in t *)
Fixpoint child_of (t : tree) (n m : nat) : Prop :=
  match t with E => False | T l k r => (n = k /\ (rootid l = Some m \/ rootid r = Some m)) \/ child_of l n m \/ child_of r n m end.
Lemma child_in t n m : child_of t n m -> n ∈ preorder t /\ m ∈ preorder t.
Proof.
  induction t as [|l IHl k r IHr]; [done|]. cbn. intros [[-> H]|[H|H]].
  - split; [left|]. right. apply elem_of_app. destruct H as [H|H]; apply preorder_root in H; [left|right]; by eapply elem_of_list_lookup_2.
  - destruct (IHl H). split; right; apply elem_of_app; by left.
  - destruct (IHr H). split; right; apply elem_of_app; by right.
Qed.
Lemma child_parent (h : list (node ndata)) t : forall p m, rep h p t -> m ∈ inord t -> exists x, h !! m = Some x /\ (rootid t = Some m /\ n_parent x = p \/ exists n, child_of t n m /\ n_parent x = Some n).
Proof.
  induction t as [|l IHl k r IHr]; intros p m; cbn; [by intros _ ?%elem_of_nil|]. intros ((x & Hx & Hp & Hl & Hr) & Rl & Rr) [H|[-> |H]%elem_of_cons]%elem_of_app.
  - destruct (IHl _ m Rl H) as (y & Hy & [[E P]|(n & C & P)]); exists y; (split; [done|]); right; [exists k|exists n]; auto.
  - exists x. auto.
  - destruct (IHr _ m Rr H) as (y & Hy & [[E P]|(n & C & P)]); exists y; (split; [done|]); right; [exists k|exists n]; auto.
Qed.
Lemma child_unique (h : list (node ndata)) t : forall p n m, rep h p t -> child_of t n m -> exists x, h !! m = Some x /\ n_parent x = Some n.
Proof.
  induction t as [|l IHl k r IHr]; intros p n m; cbn; [done|]. intros (_ & Rl & Rr) [[-> H]|[H|H]]; [|by eapply IHl|by eapply IHr].
  destruct H as [H|H]; [destruct l as [|ll lm lr]|destruct r as [|rl rm rr]]; try done; injection H as ->; [destruct Rl as ((x & Hx & Hp & _) & _)|destruct Rr as ((x & Hx & Hp & _) & _)]; by exists x.
Qed.

Definition at_id (t : tree) (nx i n : nat) : Prop := nx <= i /\ preorder t !! (i - nx) = Some n.
Lemma at_left l k r nx i n : at_id l (S nx) i n -> at_id (T l k r) nx i n.
Proof. intros [H1 H2]. split; [lia|]. replace (i - nx) with (S (i - S nx)) by lia. change ((preorder l ++ preorder r) !! (i - S nx) = Some n). by apply lookup_app_l_Some. Qed.
Lemma at_right l k r nx i n : at_id r (S nx + size l) i n -> at_id (T l k r) nx i n.
Proof.
  intros [H1 H2]. split; [lia|]. replace (i - nx) with (S (i - S nx)) by lia. change ((preorder l ++ preorder r) !! (i - S nx) = Some n). rewrite lookup_app_r by (unfold size in H1; lia). rewrite <- H2. f_equal. unfold size. lia.
Qed.
Lemma at_split l k r nx i n : at_id (T l k r) nx i n -> (i = nx /\ n = k) \/ at_id l (S nx) i n \/ at_id r (S nx + size l) i n.
Proof.
  intros [H1 H2]. destruct (i - nx) as [|j] eqn:E; [injection H2 as <-; left; split; [lia|done]|]. right. change ((preorder l ++ preorder r) !! j = Some n) in H2. apply lookup_app_Some in H2 as [H2|[L H2]].
  - left. split; [lia|]. by replace (i - S nx) with j by lia.
  - right. unfold size. split; [lia|]. rewrite <- H2. f_equal. lia.
Qed.
Lemma at_in t nx i n : at_id t nx i n -> n ∈ preorder t. Proof. intros [_ H]. by eapply elem_of_list_lookup_2. Qed.
Lemma calls_nodes s t : forall par nx i lb, GNode i lb ∈ calls s par nx t <-> exists n, at_id t nx i n /\ lb = shown_at A s n.
Proof.
  induction t as [|l IHl k r IHr]; intros par nx i lb.
  - cbn. split; [by intros ?%elem_of_nil|]. by intros (n & [_ ?] & _).
  - cbn [calls]. rewrite !elem_of_app, elem_of_cons, IHl, IHr. split.
    + intros [[[= -> ->]|H]|[(n & H & ->)|(n & H & ->)]].
      * exists k. split; [|done]. split; [lia|]. by rewrite Nat.sub_diag.
      * destruct par; [apply elem_of_list_singleton in H; done|by apply elem_of_nil in H].
      * exists n. split; [by apply at_left|done].
      * exists n. split; [by apply at_right|done].
    + intros (n & H & ->). apply at_split in H as [[-> ->]|[H|H]]; [left; by left|right; left; by exists n|right; right; by exists n].
Qed.
Lemma calls_edges s t : forall par nx i j, NoDup (preorder t) ->
  GEdge i j ∈ calls s par nx t <-> (par = Some i /\ j = nx /\ t <> E) \/ exists n m, at_id t nx i n /\ at_id t nx j m /\ child_of t n m.
Proof.
  induction t as [|l IHl k r IHr]; intros par nx i j HN.
  - cbn. split; [by intros ?%elem_of_nil|]. by intros [(_ & _ & ?)|(n & m & _ & _ & ?)].
  - cbn in HN. apply NoDup_cons in HN as [Nk HN]. apply NoDup_app in HN as (Nl & Nlr & Nr).
    cbn [calls]. rewrite !elem_of_app, elem_of_cons, IHl, IHr by done.
    assert (K0 : at_id (T l k r) nx nx k) by (split; [lia|]; by rewrite Nat.sub_diag).
    split.
    + intros [[|H]|[[(E & -> & HE)|(n & m & H1 & H2 & H3)]|[(E & -> & HE)|(n & m & H1 & H2 & H3)]]]; [done| | | | |].
      * destruct par as [p|]; [apply elem_of_list_singleton in H as [= -> ->]; by left|by apply elem_of_nil in H].
      * injection E as <-. right. destruct l as [|ll m lr]; [done|]. exists k, m. split; [done|]. split; [apply at_left; split; [lia|]; by rewrite Nat.sub_diag|]. left. split; [done|]. by left.
      * right. exists n, m. split; [by apply at_left|]. split; [by apply at_left|]. right. by left.
      * injection E as <-. right. destruct r as [|rl m rr]; [done|]. exists k, m. split; [done|]. split; [apply at_right; split; [lia|]; by rewrite Nat.sub_diag|]. left. split; [done|]. by right.
      * right. exists n, m. split; [by apply at_right|]. split; [by apply at_right|]. right. by right.
    + intros [(-> & -> & _)|(n & m & H1 & H2 & H3)]; [left; right; left|].
      apply at_split in H1, H2. destruct H3 as [[-> H3]|[H3|H3]].
      * destruct H1 as [[-> _]|[H1|H1]]; [|by destruct Nk; apply elem_of_app; left; apply (at_in l _ _ _ H1)|by destruct Nk; apply elem_of_app; right; apply (at_in r _ _ _ H1)].
        right. destruct H3 as [H3|H3].
        { left. left. pose proof (preorder_root _ _ H3) as X. assert (Hm : m ∈ preorder l) by (by eapply elem_of_list_lookup_2).
          split; [done|]. split; [|by intros ->]. destruct H2 as [[_ ->]|[[L2 H2]|H2]]; [destruct Nk; apply elem_of_app; by left| |destruct (Nlr m Hm); apply (at_in r _ _ _ H2)].
          pose proof (NoDup_lookup _ _ _ _ Nl H2 X). lia. }
        { right. left. pose proof (preorder_root _ _ H3) as X. assert (Hm : m ∈ preorder r) by (by eapply elem_of_list_lookup_2).
          split; [done|]. split; [|by intros ->]. destruct H2 as [[_ ->]|[H2|[L2 H2]]]; [destruct Nk; apply elem_of_app; by right|destruct (Nlr m (at_in l _ _ _ H2)); done|].
          pose proof (NoDup_lookup _ _ _ _ Nr H2 X). lia. }
      * destruct (child_in _ _ _ H3) as [Hn Hm]. right. left. right. exists n, m.
        destruct H1 as [[_ ->]|[H1|H1]]; [by destruct Nk; apply elem_of_app; left| |by destruct (Nlr n Hn); apply (at_in r _ _ _ H1)].
        destruct H2 as [[_ ->]|[H2|H2]]; [by destruct Nk; apply elem_of_app; left| |by destruct (Nlr m Hm); apply (at_in r _ _ _ H2)]. done.
      * destruct (child_in _ _ _ H3) as [Hn Hm]. right. right. right. exists n, m.
        destruct H1 as [[_ ->]|[H1|H1]]; [by destruct Nk; apply elem_of_app; right|by destruct (Nlr n (at_in l _ _ _ H1))|].
        destruct H2 as [[_ ->]|[H2|H2]]; [by destruct Nk; apply elem_of_app; right|by destruct (Nlr m (at_in l _ _ _ H2))|]. done.
Qed.
Lemma calls_length s t : forall par nx, List.length (calls s par nx t) + match par with Some _ => 0 | None => match t with E => 0 | _ => 1 end end = 2 * size t.
Proof.
  induction t as [|l IHl k r IHr]; intros par nx; [by destruct par|]. cbn [calls]. rewrite !app_length. cbn [List.length]. specialize (IHl (Some nx) (S nx)). specialize (IHr (Some nx) (S nx + size l)). cbn in IHl, IHr.
  unfold size in *. cbn. rewrite app_length. destruct par; cbn; lia.
Qed.
End WT.
