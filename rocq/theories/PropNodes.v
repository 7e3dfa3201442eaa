(* PropNodes.v -- Tree.insert, Tree.delete, Tree.find and Tree.get_leaves (C40, C45), and the
   balance of the status tree during a run (C36). *)
From stdpp Require Import base list sets sorting.
From Coq Require Import ZArith Lia.
From Verif Require Import Arith DecArith DecLaws Geom Monad Tree Heapq State Sweep EventOrder TreeProofs TreeOps TreeAvl TreeInsert NodeFacts FindFacts
  Spec Witness NodeWitness PropTree.

(* ---------- vocabulary ---------- *)
(* [search_tree key lt h root t ks]: the objects in h reachable from root form the tree t; the
   keys of its nodes from left to right are ks and increase; siblings differ in height by at
   most one; heights that are cached are the true ones *)
Definition search_tree {X K} (key : node X -> result K) (lt : K -> K -> bool) h root t ks : Prop :=
  stored h root t /\ keys_in key h t ks /\ increasing lt ks /\ balanced t /\ heights_right h t.
(* get_key reads the data of the node only *)
Definition key_of_data {X K} (key : node X -> result K) : Prop := forall x y, n_data x = n_data y -> key x = key y.
(* Node(data) *)
Definition new_like {X} (x : node X) : Prop := n_left x = None /\ n_right x = None /\ n_parent x = None /\ n_height x = None.

Lemma nat_lt_order : StrictWeak Nat.ltb.
Proof. split; intros *; rewrite ?Nat.ltb_lt, ?Nat.ltb_ge; lia. Qed.

(* ---------- C40: insert ---------- *)
Theorem C40_insert {X K} (key : node X -> result K) (lt : K -> K -> bool) (h : list (node X)) root t ks nd x k :
  StrictWeak lt -> key_of_data key -> search_tree key lt h root t ks ->
  h !! nd = Some x -> nd ∉ inord t -> new_like x -> key x = Val k ->
  (forall k', k' ∈ ks -> ~ same_key lt k k') ->
  exists h' root' t' ks1 ks2, insert key lt root nd h = Val (h', root') /\ ks = ks1 ++ ks2 /\
    search_tree key lt h' (Some root') t' (ks1 ++ k :: ks2) /\ inord t' ≡ₚ nd :: inord t /\ contents h' = contents h.
Proof.
  intros SW KD ((R & Hr & N) & HK & HS & HB & HH) Hx Hn (Nl & Nr & Np & Nh) Hk HD.
  destruct (insert_spec key lt SW KD h root t ks nd x k) as
    (h' & root' & t' & ks1 & ks2 & E1 & R' & Hr' & N' & -> & HK' & HS' & HP & HB' & HH' & HC); auto.
  exists h', root', t', ks1, ks2. split_and!; auto. split_and!; auto. split_and!; auto.
Qed.
Print Assumptions C40_insert.

(* root = None; for k in ks: root = Tree.insert(root, Node(k)) *)
Theorem C40_insert_all {K} (lt : K -> K -> bool) (ks : list K) : StrictWeak lt -> all_different lt ks ->
  exists h root t sorted, insert_keys lt None ks [] = Val (h, root) /\ search_tree node_key lt h root t sorted /\ sorted ≡ₚ ks.
Proof.
  intros SW HD. destruct (insert_keys_spec lt SW ks [] E []) as (h & t & ks' & E1 & R & N & HK & HS & HP & HB & HH).
  - done.
  - constructor.
  - constructor.
  - constructor.
  - intros l n r Hs. inversion Hs.
  - intros l n r x k Hs. inversion Hs.
  - by rewrite app_nil_r.
  - exists h, (rootid t), t, ks'. rewrite app_nil_r in HP. split_and!; auto. split_and!; auto. split_and!; auto.
Qed.
Print Assumptions C40_insert_all.
Example C40_insert_case : StrictWeak Nat.ltb /\ all_different Nat.ltb [5; 3; 8; 1; 4; 2].
Proof.
  split; [exact nat_lt_order|]. intros i j a b Hij Ha Hb [H1 H2]. apply Nat.ltb_ge in H1, H2. assert (a = b) as -> by lia.
  apply Hij. refine (NoDup_lookup [5; 3; 8; 1; 4; 2] i j b _ Ha Hb). repeat (constructor; [set_solver|]). constructor.
Qed.
(* a case of C40_insert: the tree of the six keys, and a seventh *)
Example C40_insert_case' : exists h root t ks, search_tree node_key Nat.ltb h root t ks /\ length ks = 6 /\ forall k', k' ∈ ks -> ~ same_key Nat.ltb 7 k'.
Proof.
  destruct (C40_insert_all Nat.ltb [5; 3; 8; 1; 4; 2]) as (h & root & t & ks & _ & HT & HP); [apply C40_insert_case..|].
  exists h, root, t, ks. split; [exact HT|]. split; [by rewrite HP|]. intros k'. rewrite HP. intros Hk [H1 H2].
  apply Nat.ltb_ge in H1, H2. assert (k' = 7) as -> by lia. clear - Hk. set_solver.
Qed.

(* repeated keys: three equal keys leave an unbalanced chain *)
Theorem C40_insert_repeated_refuted : exists ks h root t, insert_keys Nat.ltb None ks [] = Val (h, root) /\ stored h root t /\ ~ balanced t.
Proof.
  exists [1; 1; 1], [mkNode 1 None (Some 1) (Some 3) None; mkNode 1 None (Some 2) (Some 2) (Some 0); mkNode 1 None None (Some 1) (Some 1)], (Some 0),
    (T E 0 (T E 1 (T E 2 E))).
  split; [reflexivity|]. split; [|by apply balancedb_avl]. split; [|split; [done|]].
  - simpl. repeat split; eexists; repeat split; reflexivity.
  - repeat (constructor; [set_solver|]). constructor.
Qed.
Print Assumptions C40_insert_repeated_refuted.
(* and a further, smaller key can then make insert raise *)
Theorem C40_insert_raises_refuted : exists ks, insert_keys Nat.ltb None ks [] = Raise AttributeError.
Proof. exists [1; 1; 1; 1; 0]. reflexivity. Qed.
Print Assumptions C40_insert_raises_refuted.

(* ---------- C40: delete ---------- *)
(* a key that is not in the tree: nothing is removed *)
Theorem C40_delete_absent {X K} (key : node X -> result K) (lt : K -> K -> bool) (h : list (node X)) root t ks k :
  StrictWeak lt -> key_of_data key -> search_tree key lt h root t ks -> (forall k', k' ∈ ks -> ~ same_key lt k k') ->
  exists h' root' t', delete key lt root k h = Val (h', root') /\ stored h' root' t' /\ inord t' = inord t /\
    balanced t' /\ heights_right h' t' /\ contents h' = contents h.
Proof.
  intros SW KD ((R & Hr & N) & HK & HS & HB & HH) HD.
  destruct (delete_spec key lt SW KD h root t ks k R Hr N HK HS HB HH) as [DA _].
  destruct (DA HD) as (h' & t' & E1 & R' & N' & HI & HB' & HH' & HC). exists h', (rootid t'), t'. split_and!; auto. split; auto.
Qed.
Print Assumptions C40_delete_absent.
(* a key of a node with at most one child: exactly that node is removed.  Partial: when it was
   the root, the new root keeps it as its parent; and see C40_delete_refuted *)
Theorem C40_delete_partial {X K} (key : node X -> result K) (lt : K -> K -> bool) (h : list (node X)) root t ks k L1 n L2 x k' :
  StrictWeak lt -> key_of_data key -> search_tree key lt h root t ks ->
  inord t = L1 ++ n :: L2 -> h !! n = Some x -> key x = Val k' -> same_key lt k k' -> n_left x = None \/ n_right x = None ->
  exists h' root' t', delete key lt root k h = Val (h', root') /\ inord t' = L1 ++ L2 /\ contents h' = contents h /\
    rep h' (if decide (root = Some n) then Some n else None) t' /\ root' = rootid t' /\ NoDup (inord t') /\
    balanced t' /\ heights_right h' t'.
Proof.
  intros SW KD ((R & Hr & N) & HK & HS & HB & HH) HE Hx Hk Hs Ho.
  destruct (delete_spec key lt SW KD h root t ks k R Hr N HK HS HB HH) as [_ DB].
  destruct (DB L1 n L2 x k' HE Hx Hk Hs) as [_ DB1].
  destruct (DB1 Ho) as (h' & t' & E1 & R' & N' & HI & HB' & HH' & HC). exists h', (rootid t'), t'. split_and!; auto.
Qed.
Print Assumptions C40_delete_partial.
(* a key of a node with two children: always an AttributeError *)
Theorem C40_delete_two_children {X K} (key : node X -> result K) (lt : K -> K -> bool) (h : list (node X)) root t ks k n x k' :
  StrictWeak lt -> key_of_data key -> search_tree key lt h root t ks ->
  n ∈ inord t -> h !! n = Some x -> key x = Val k' -> same_key lt k k' -> n_left x <> None -> n_right x <> None ->
  delete key lt root k h = Raise AttributeError.
Proof.
  intros SW KD ((R & Hr & N) & HK & HS & HB & HH) Hin Hx Hk Hs Hl Hrr.
  destruct (delete_spec key lt SW KD h root t ks k R Hr N HK HS HB HH) as [_ DB].
  apply elem_of_list_split in Hin as (L1 & L2 & HE). destruct (DB L1 n L2 x k' HE Hx Hk Hs) as [D2 _]. by apply D2.
Qed.
Print Assumptions C40_delete_two_children.

(* a concrete tree for the hypotheses: 10 with the children 0 and 20 *)
Definition h4 : list (node nat) := [mkNode 0 None None (Some 1) (Some 1); mkNode 10 (Some 0) (Some 2) (Some 2) None; mkNode 20 None None None (Some 1)].
Lemma h4_tree : search_tree node_key Nat.ltb h4 (Some 1) t3 [0; 10; 20].
Proof.
  split; [split; [|split; [done|]]|split; [|split; [|split]]].
  - simpl. repeat split; eexists; repeat split; reflexivity.
  - vm_compute. repeat constructor; set_solver.
  - repeat (constructor; [eexists; split; reflexivity|]). constructor.
  - repeat (constructor; [|repeat constructor]). constructor.
  - apply avl_balanced. simpl. repeat split; lia.
  - apply cok_right. simpl. unfold cached. simpl. repeat split; intros k [= <-]; done.
Qed.
Theorem C40_delete_refuted : exists h root t ks k, search_tree node_key Nat.ltb h root t ks /\ k ∈ ks /\
  delete node_key Nat.ltb root k h = Raise AttributeError.
Proof. exists h4, (Some 1), t3, [0; 10; 20], 10. split; [exact h4_tree|]. split; [set_solver|]. reflexivity. Qed.
Print Assumptions C40_delete_refuted.
(* the new root after the deletion of a root with one child still names it as its parent *)
Theorem C40_delete_root_refuted : exists h root t ks k h' root' x', search_tree node_key Nat.ltb h root t ks /\
  delete node_key Nat.ltb root k h = Val (h', Some root') /\ h' !! root' = Some x' /\ n_parent x' = root /\ root <> Some root'.
Proof.
  exists [mkNode 0 None None (Some 1) (Some 1); mkNode 10 (Some 0) None (Some 2) None], (Some 1), (T (leaf 0) 1 E), [0; 10], 10.
  eexists _, _, _. split.
  { split; [split; [|split; [done|]]|split; [|split; [|split]]].
    - simpl. repeat split; eexists; repeat split; reflexivity.
    - vm_compute. repeat constructor; set_solver.
    - repeat (constructor; [eexists; split; reflexivity|]). constructor.
    - repeat (constructor; [|repeat constructor]). constructor.
    - apply avl_balanced. simpl. repeat split; lia.
    - apply cok_right. simpl. unfold cached. simpl. repeat split; intros k [= <-]; done. }
  split; [vm_compute; reflexivity|]. split; [reflexivity|]. done.
Qed.
Print Assumptions C40_delete_root_refuted.
Example C40_delete_case : search_tree node_key Nat.ltb h4 (Some 1) t3 [0; 10; 20] /\ inord t3 = [0; 1] ++ 2 :: [] /\
  (exists x, h4 !! 2 = Some x /\ node_key x = Val 20 /\ n_left x = None) /\ same_key Nat.ltb 20 20 /\
  (forall k', k' ∈ [0; 10; 20] -> ~ same_key Nat.ltb 15 k').
Proof.
  split; [exact h4_tree|]. split; [done|]. split; [eexists; repeat split; reflexivity|]. split; [done|].
  intros k' Hk [H1 H2]. apply Nat.ltb_ge in H1, H2. assert (k' = 15) as -> by lia. set_solver.
Qed.

(* ---------- C45 ---------- *)
Theorem C45_find {X K} (key : node X -> result K) (lt eq : K -> K -> bool) (h : list (node X)) root t ks k :
  StrictWeak lt -> (forall a b, eq a b = true <-> same_key lt a b) -> stored h root t -> keys_in key h t ks -> increasing lt ks ->
  exists o, find key lt eq root k h = Val (h, o) /\
    match o with
    | Some n => n ∈ inord t /\ exists x k', h !! n = Some x /\ key x = Val k' /\ same_key lt k k'
    | None => forall k', k' ∈ ks -> ~ same_key lt k k'
    end.
Proof. intros SW HE (R & Hr & N). exact (find_spec key lt eq SW HE h root t ks k R Hr N). Qed.
Print Assumptions C45_find.
Example C45_case : StrictWeak Nat.ltb /\ (forall a b, Nat.eqb a b = true <-> same_key Nat.ltb a b) /\ search_tree node_key Nat.ltb h4 (Some 1) t3 [0; 10; 20] /\
  find node_key Nat.ltb Nat.eqb (Some 1) 20 h4 = Val (h4, Some 2) /\ find node_key Nat.ltb Nat.eqb (Some 1) 15 h4 = Val (h4, None).
Proof.
  split; [exact nat_lt_order|]. split; [|split; [exact h4_tree|split; reflexivity]].
  intros a b. unfold same_key. rewrite Nat.eqb_eq, !Nat.ltb_ge. lia.
Qed.
(* the leaves, from left to right *)
Theorem C45_get_leaves {X} (h : list (node X)) t n : stored h (Some n) t -> get_leaves n h = Val (h, childless t).
Proof. intros (R & Hr & N). exact (get_leaves_spec h t n R (eq_sym Hr) N). Qed.
Print Assumptions C45_get_leaves.
Example C45_leaves_case : stored h4 (Some 1) t3 /\ childless t3 = [0; 2].
Proof. split; [apply h4_tree|done]. Qed.

(* ---------- C36 ---------- *)
Definition row4 : list (pt DecArith) := [(z 0, z 0); (z 1, z 0); (z 2, z 0); (z 3, z 0)]%Z.
Definition kite4 : list (pt DecArith) := [(z (-3), z (-3)); (z 2, z (-2)); (z 3, z (-3)); (z 4, z 2)]%Z.
Lemma row4_lawful : lawful DecArith row4.
Proof.
  apply (conj DecArith_order). refine (conj (DecArith_mid 0 _ _) DecArith_circle). intros x Hx. simpl in Hx. unfold z in Hx.
  destruct Hx as [<-|[<-|[<-|[<-|[]]]]]; vm_compute; intuition congruence.
Qed.
Lemma kite4_lawful : lawful DecArith kite4.
Proof.
  apply (conj DecArith_order). refine (conj (DecArith_mid 0 _ _) DecArith_circle). intros x Hx. simpl in Hx. unfold z in Hx.
  destruct Hx as [<-|[<-|[<-|[<-|[]]]]]; vm_compute; intuition congruence.
Qed.
Lemma row4_tree : tree_at DecArith row4 [] 4 (fun _ t => balancedb t) = true.
Proof. vm_compute. reflexivity. Qed.
Lemma kite4_tree : tree_at DecArith kite4 [] 4 rightb = true.
Proof. vm_compute. reflexivity. Qed.

(* after four site events on a horizontal line the status tree is not balanced *)
Theorem C36_balanced_refuted : exists xys s index hist t, lawful DecArith xys /\ runs DecArith xys [] s index hist /\
  stored (s_nodes s) (s_root s) t /\ ~ balanced t.
Proof.
  destruct (tree_at_runs DecArith row4 [] 4 (fun _ t => balancedb t) row4_lawful row4_tree) as (s & idx & hist & t & HR & R & Hr & N & HB).
  exists row4, s, idx, hist, t. exact (conj row4_lawful (conj HR (conj (conj R (conj Hr N)) (balancedb_avl t HB)))).
Qed.
Print Assumptions C36_balanced_refuted.
(* after four events of another run a cached height is wrong *)
Theorem C36_heights_refuted : exists xys s index hist t, lawful DecArith xys /\ runs DecArith xys [] s index hist /\
  stored (s_nodes s) (s_root s) t /\ ~ heights_right (s_nodes s) t.
Proof.
  destruct (tree_at_runs DecArith kite4 [] 4 rightb kite4_lawful kite4_tree) as (s & idx & hist & t & HR & R & Hr & N & HB).
  exists kite4, s, idx, hist, t. exact (conj kite4_lawful (conj HR (conj (conj R (conj Hr N)) (rightb_right (s_nodes s) t HB)))).
Qed.
Print Assumptions C36_heights_refuted.
(* What Tree.balance itself does is right: a node whose subtrees are balanced, whose cached
   heights are right and whose subtrees differ in height by at most two becomes balanced.
   Partial: the sweep does not establish these conditions, as shown above. *)
Theorem C36_balance_partial {X} (h : list (node X)) root t l z r : stored h root t -> subtree (T l z r) t ->
  heights_right h (T l z r) -> balanced l -> balanced r -> depth l <= 2 + depth r -> depth r <= 2 + depth l ->
  exists h' m root' t' u, balance z h = Val (h', m) /\ stored h' root' t' /\ inord t' = inord t /\
    subtree u t' /\ rootid u = Some m /\ inord u = inord (T l z r) /\ balanced u /\ heights_right h' u.
Proof.
  intros (R & Hr & N) HS HH BL BR D1 D2. apply subtree_plug in HS as (C & ->).
  apply rep_plug in R as [Rc R]. assert (ND : NoDup (ctx_ids C ++ inord (T l z r))) by (eapply NoDup_perm; [|exact N]; symmetry; apply plug_ids).
  destruct (balance_exact h C l z r) as (h' & m & t' & E1 & Hm & HI & Rc' & R' & _ & C' & _ & Av & _); auto; [by apply cok_right|].
  destruct Av as [Av _]; auto; try by apply avl_balanced.
  exists h', m, (rootid (plug C t')), (plug C t'), t'. rewrite <- Hm in Rc'. split; [done|].
  assert (HI' : inord (plug C t') = inord (plug C (T l z r))) by (rewrite !inord_plug; by rewrite HI).
  split. { split; [apply rep_plug; by split|]. split; [done|]. by rewrite HI'. }
  split; [done|]. split; [by apply plug_subtree|]. split; [done|]. split; [done|]. split; [by apply avl_balanced|by apply cok_right].
Qed.
Print Assumptions C36_balance_partial.
Example C36_case : let t := T (T (leaf 0) 1 E) 2 E in
  let h := [mkNode 0 None None None (Some 1); mkNode 1 (Some 0) None (Some 2) (Some 2); mkNode 2 (Some 1) None None None] in
  stored h (Some 2) t /\ subtree t t /\ heights_right h t /\ balanced (T (leaf 0) 1 E) /\ balanced E /\ ~ balanced t.
Proof.
  intros t h. split; [split; [|split; [done|]]|split; [|split; [|split; [|split]]]].
  - simpl. repeat split; eexists; repeat split; reflexivity.
  - vm_compute. repeat constructor; set_solver.
  - apply sub_here.
  - apply cok_right. simpl. unfold cached. simpl. repeat split; intros k [=]; done.
  - apply avl_balanced. simpl. repeat split; lia.
  - apply avl_balanced. done.
  - by apply balancedb_avl.
Qed.
