(* Tree.v -- model of foronoi/tree/node.py and foronoi/tree/tree.py.

   Node objects live in a store [list (node X)]; an object's identity is its index,
   so Python's `is`/default `==` on nodes is equality of indices. *)
From stdpp Require Import base list.
From Coq Require Import ZArith.
From Verif Require Import Arith Monad.
Local Open Scope monad_scope.

(* tree/node.py:2-11 the attributes of Node *)
Record node (X : Type) : Type := mkNode {
  n_data : X;
  n_left : option nat;      (* _left *)
  n_right : option nat;     (* _right *)
  n_height : option nat;    (* _height *)
  n_parent : option nat     (* parent *)
}.
Arguments mkNode {X}. Arguments n_data {X}. Arguments n_left {X}. Arguments n_right {X}.
Arguments n_height {X}. Arguments n_parent {X}.

Section Tree.
Context {X : Type}.
Notation heap := (list (node X)).

Definition with_left (c : option nat) (x : node X) : node X :=
  mkNode (n_data x) c (n_right x) (n_height x) (n_parent x).
Definition with_right (c : option nat) (x : node X) : node X :=
  mkNode (n_data x) (n_left x) c (n_height x) (n_parent x).
Definition with_height (c : option nat) (x : node X) : node X :=
  mkNode (n_data x) (n_left x) (n_right x) c (n_parent x).
Definition with_parent (c : option nat) (x : node X) : node X :=
  mkNode (n_data x) (n_left x) (n_right x) (n_height x) c.
Definition with_data (d : X) (x : node X) : node X :=
  mkNode d (n_left x) (n_right x) (n_height x) (n_parent x).

(* tree/node.py:2-11 Node.__init__; nodes/internal_node.py:5-6, nodes/leaf_node.py:6-7 *)
Definition new_node (d : X) : M heap nat :=
  fun h => Val (h ++ [mkNode d None None None None], length h).

Definition get (n : nat) : M heap (node X) := get_at n.
Definition upd (n : nat) (f : node X -> node X) : M heap unit := upd_at n f.

(* tree/node.py:39-47 the left setter *)
Definition set_left (n : nat) (c : option nat) : M heap unit :=
  match c with Some k => upd k (with_parent (Some n)) | None => ret tt end;;;
  upd n (with_left c).

(* tree/node.py:49-57 the right setter *)
Definition set_right (n : nat) (c : option nat) : M heap unit :=
  match c with Some k => upd k (with_parent (Some n)) | None => ret tt end;;;
  upd n (with_right c).

(* `x.height if x is not None else 0` (node.py:67-68, 77-78) over a given reading of heights *)
Definition height_or_0 (height : nat -> M heap nat) (c : option nat) : M heap nat :=
  match c with Some k => height k | None => ret 0 end.

(* tree/node.py:59-63 height (and 71-80 calculate_height, which it calls); recursion
   over the depth of the tree, by fuel *)
Fixpoint height_fuel (fuel : nat) (n : nat) : M heap nat :=
  match fuel with
  | O => raise OutOfFuel
  | S fuel =>
      x <- get n;;
      match n_height x with
      | Some k => ret k
      | None =>
          hl <- height_or_0 (height_fuel fuel) (n_left x);;
          hr <- height_or_0 (height_fuel fuel) (n_right x);;
          upd n (with_height (Some (1 + max hl hr)));;;
          ret (1 + max hl hr)
      end
  end.
Definition height (n : nat) : M heap nat := fun h => height_fuel (S (length h)) n h.

(* tree/node.py:71-80 calculate_height *)
Definition calculate_height (n : nat) : M heap nat :=
  x <- get n;;
  hl <- height_or_0 height (n_left x);;
  hr <- height_or_0 height (n_right x);;
  ret (1 + max hl hr).

(* tree/node.py:65-69 balance *)
Definition balance_of (n : nat) : M heap Z :=
  x <- get n;;
  hl <- height_or_0 height (n_left x);;
  hr <- height_or_0 height (n_right x);;
  ret (Z.of_nat hl - Z.of_nat hr)%Z.

(* tree/node.py:82-86 update_height *)
Definition update_height (n : nat) : M heap unit :=
  k <- calculate_height n;; upd n (with_height (Some k)).

(* tree/node.py:88-98 update_heights *)
Fixpoint update_heights_fuel (fuel : nat) (n : nat) : M heap unit :=
  match fuel with
  | O => raise OutOfFuel
  | S fuel =>
      update_height n;;;
      x <- get n;;
      match n_parent x with
      | Some p => update_heights_fuel fuel p
      | None => ret tt
      end
  end.
Definition update_heights (n : nat) : M heap unit := fun h => update_heights_fuel (S (length h)) n h.

(* tree/node.py:100-107 is_left_child *)
Definition is_left_child (n : nat) : M heap bool :=
  x <- get n;;
  match n_parent x with
  | None => ret false
  | Some p => y <- get p;; ret (bool_decide (n_left y = Some n))
  end.

(* tree/node.py:109-116 is_right_child *)
Definition is_right_child (n : nat) : M heap bool :=
  x <- get n;;
  match n_parent x with
  | None => ret false
  | Some p => y <- get p;; ret (bool_decide (n_right y = Some n))
  end.

(* tree/node.py:118-123 is_leaf *)
Definition is_leaf (n : nat) : M heap bool :=
  x <- get n;; ret (bool_decide (n_left x = None) && bool_decide (n_right x = None)).

(* tree/node.py:125-133 minimum *)
Fixpoint minimum_fuel (fuel : nat) (n : nat) : M heap nat :=
  match fuel with
  | O => raise OutOfFuel
  | S fuel => x <- get n;; match n_left x with Some l => minimum_fuel fuel l | None => ret n end
  end.
Definition minimum (n : nat) : M heap nat := fun h => minimum_fuel (S (length h)) n h.

(* tree/node.py:135-143 maximum *)
Fixpoint maximum_fuel (fuel : nat) (n : nat) : M heap nat :=
  match fuel with
  | O => raise OutOfFuel
  | S fuel => x <- get n;; match n_right x with Some r => maximum_fuel fuel r | None => ret n end
  end.
Definition maximum (n : nat) : M heap nat := fun h => maximum_fuel (S (length h)) n h.

(* tree/node.py:156-159 `while current.is_right_child(): current = current.parent` *)
Fixpoint climb_right_fuel (fuel : nat) (n : nat) : M heap nat :=
  match fuel with
  | O => raise OutOfFuel
  | S fuel =>
      b <- is_right_child n;;
      if b : bool then x <- get n;; p <- need (n_parent x);; climb_right_fuel fuel p else ret n
  end.

(* tree/node.py:179-182 `while current.is_left_child(): current = current.parent` *)
Fixpoint climb_left_fuel (fuel : nat) (n : nat) : M heap nat :=
  match fuel with
  | O => raise OutOfFuel
  | S fuel =>
      b <- is_left_child n;;
      if b : bool then x <- get n;; p <- need (n_parent x);; climb_left_fuel fuel p else ret n
  end.

(* tree/node.py:145-166 successor *)
Definition successor (n : nat) : M heap (option nat) :=
  x <- get n;;
  match n_right x with
  | Some r => m <- minimum r;; ret (Some m)
  | None =>
      fuel <- read (fun h => S (length h));;
      c <- climb_right_fuel fuel n;;
      y <- get c;;
      match n_parent y with
      | None => ret None
      | Some p =>
          z <- get p;;
          match n_right z with
          | None => ret None
          | Some r => m <- minimum r;; ret (Some m)
          end
      end
  end.

(* tree/node.py:168-189 predecessor *)
Definition predecessor (n : nat) : M heap (option nat) :=
  x <- get n;;
  match n_left x with
  | Some l => m <- maximum l;; ret (Some m)
  | None =>
      fuel <- read (fun h => S (length h));;
      c <- climb_left_fuel fuel n;;
      y <- get c;;
      match n_parent y with
      | None => ret None
      | Some p =>
          z <- get p;;
          match n_left z with
          | None => ret None
          | Some l => m <- maximum l;; ret (Some m)
          end
      end
  end.

(* tree/node.py:191-227 replace_leaf *)
Definition replace_leaf (self : nat) (replacement : option nat) (root : option nat) : M heap (option nat) :=
  x <- get self;;
  match replacement with
  | Some r => upd r (with_parent (n_parent x))
  | None => ret tt
  end;;;
  bl <- is_left_child self;;
  root' <-
    (if bl : bool then
       p <- need (n_parent x);; set_left p replacement;;; ret root
     else
       br <- is_right_child self;;
       if br : bool then
         p <- need (n_parent x);; set_right p replacement;;; ret root
       else ret replacement);;
  match replacement with
  | Some r => update_heights r
  | None =>
      y <- get self;;
      match n_parent y with Some p => update_heights p | None => ret tt end
  end;;;
  ret root'.

(* tree/tree.py:249-256 / 291-298: attach [y] where [z] hung below its parent *)
Definition reattach (z y : nat) (grandparent : option nat) : M heap unit :=
  upd y (with_parent grandparent);;;
  match grandparent with
  | None => ret tt
  | Some g =>
      bl <- is_left_child z;;
      if bl : bool then set_left g (Some y) else set_right g (Some y)
  end.

(* tree/tree.py:227-267 rotate_left *)
Definition rotate_left (z : nat) : M heap nat :=
  xz <- get z;;
  y <- need (n_right xz);;
  xy <- get y;;
  reattach z y (n_parent xz);;;
  set_left y (Some z);;;
  set_right z (n_left xy);;;
  update_height z;;;
  update_height y;;;
  ret y.

(* tree/tree.py:269-309 rotate_right *)
Definition rotate_right (z : nat) : M heap nat :=
  xz <- get z;;
  y <- need (n_left xz);;
  xy <- get y;;
  reattach z y (n_parent xz);;;
  set_right y (Some z);;;
  set_left z (n_right xy);;;
  update_height z;;;
  update_height y;;;
  ret y.

(* `node.balance > 1 and node.left.balance <test>` (tree.py:208, 216) *)
Definition left_heavy (n : nat) (test : Z -> bool) : M heap bool :=
  b <- balance_of n;;
  if (1 <? b)%Z then x <- get n;; l <- need (n_left x);; bl <- balance_of l;; ret (test bl) else ret false.

(* `node.balance < -1 and node.right.balance <test>` (tree.py:212, 221) *)
Definition right_heavy (n : nat) (test : Z -> bool) : M heap bool :=
  b <- balance_of n;;
  if (b <? -1)%Z then x <- get n;; r <- need (n_right x);; br <- balance_of r;; ret (test br) else ret false.

(* tree/tree.py:197-225 balance *)
Definition balance (n : nat) : M heap nat :=
  c1 <- left_heavy n (fun b => 0 <=? b)%Z;;
  if c1 : bool then rotate_right n else
  c2 <- right_heavy n (fun b => b <=? 0)%Z;;
  if c2 : bool then rotate_left n else
  c3 <- left_heavy n (fun b => b <? 0)%Z;;
  if c3 : bool then
    x <- get n;; l <- need (n_left x);; l' <- rotate_left l;;
    set_left n (Some l');;; rotate_right n
  else
  c4 <- right_heavy n (fun b => 0 <? b)%Z;;
  if c4 : bool then
    x <- get n;; r <- need (n_right x);; r' <- rotate_right r;;
    set_right n (Some r');;; rotate_left n
  else ret n.

(* tree/tree.py:181-195 balance_and_propagate *)
Fixpoint balance_and_propagate_fuel (fuel : nat) (n : nat) : M heap nat :=
  match fuel with
  | O => raise OutOfFuel
  | S fuel =>
      m <- balance n;;
      x <- get m;;
      match n_parent x with
      | None => ret m
      | Some p => balance_and_propagate_fuel fuel p
      end
  end.
Definition balance_and_propagate (n : nat) : M heap nat :=
  fun h => balance_and_propagate_fuel (S (length h)) n h.

(* tree/tree.py:311-326 get_leaves *)
Fixpoint get_leaves_fuel (fuel : nat) (n : nat) : M heap (list nat) :=
  match fuel with
  | O => raise OutOfFuel
  | S fuel =>
      b <- is_leaf n;;
      if b : bool then ret [n] else
      x <- get n;;
      l <- match n_left x with Some k => get_leaves_fuel fuel k | None => ret [] end;;
      r <- match n_right x with Some k => get_leaves_fuel fuel k | None => ret [] end;;
      ret (l ++ r)
  end.
Definition get_leaves (n : nat) : M heap (list nat) := fun h => get_leaves_fuel (S (length h)) n h.

(* ---- searches; [K] is the type of keys, [key] the get_key method (which may
   raise, e.g. arithmetically), [lt]/[eq] the comparisons used on keys ---- *)
Section Search.
Context {K : Type} (key : node X -> result K) (lt eq : K -> K -> bool).

(* tree/tree.py:10-23 find *)
Fixpoint find_fuel (fuel : nat) (n : option nat) (k : K) : M heap (option nat) :=
  match n with
  | None => ret None
  | Some i =>
      match fuel with
      | O => raise OutOfFuel
      | S fuel =>
          x <- get i;;
          kx <- lift (key x);;
          if eq k kx then ret (Some i)
          else if lt k kx then find_fuel fuel (n_left x) k
          else find_fuel fuel (n_right x) k
      end
  end.
Definition find (n : option nat) (k : K) : M heap (option nat) := fun h => find_fuel (S (length h)) n k h.

(* tree/tree.py:25-63 find_value; [qkey] is query.get_key(), [compare] the predicate
   compare(node.data, query.data).  Python re-evaluates qkey at each call; it is the
   same value each time. *)
Fixpoint find_value_fuel (fuel : nat) (n : option nat) (qkey : result K) (compare : X -> bool)
  : M heap (option nat) :=
  match fuel with
  | O => raise OutOfFuel
  | S fuel =>
      k <- lift qkey;;
      match n with
      | None => ret None
      | Some i =>
          x <- get i;;
          kx <- lift (key x);;
          if eq k kx then
            if compare (n_data x) then ret (Some i)
            else
              l <- find_value_fuel fuel (n_left x) qkey compare;;
              match l with
              | None => find_value_fuel fuel (n_right x) qkey compare
              | Some _ => ret l
              end
          else if lt k kx then
            l <- find_value_fuel fuel (n_left x) qkey compare;;
            match l with
            | Some _ => ret l
            | None => find_value_fuel fuel (n_right x) qkey compare
            end
          else
            r <- find_value_fuel fuel (n_right x) qkey compare;;
            match r with
            | Some _ => ret r
            | None => find_value_fuel fuel (n_left x) qkey compare
            end
      end
  end.
Definition find_value (n : option nat) (qkey : result K) (compare : X -> bool) : M heap (option nat) :=
  fun h => find_value_fuel (S (S (length h))) n qkey compare h.

(* tree/tree.py:65-102 find_leaf_node *)
Fixpoint find_leaf_node_fuel (fuel : nat) (n : option nat) (k : K) : M heap (option nat) :=
  match n with
  | None => ret None
  | Some i =>
      match fuel with
      | O => raise OutOfFuel
      | S fuel =>
          b <- is_leaf i;;
          if b : bool then ret (Some i) else
          x <- get i;;
          kx <- lift (key x);;
          if eq k kx then
            match n_left x with
            | Some l => m <- maximum l;; ret (Some m)
            | None => r <- need (n_right x);; m <- minimum r;; ret (Some m)
            end
          else if lt k kx then find_leaf_node_fuel fuel (n_left x) k
          else find_leaf_node_fuel fuel (n_right x) k
      end
  end.
Definition find_leaf_node (n : option nat) (k : K) : M heap (option nat) :=
  fun h => find_leaf_node_fuel (S (length h)) n k h.

(* tree/tree.py:104-144 insert *)
Fixpoint insert_fuel (fuel : nat) (root : option nat) (nd : nat) : M heap nat :=
  match root with
  | None => ret nd
  | Some r =>
      match fuel with
      | O => raise OutOfFuel
      | S fuel =>
          xn <- get nd;; kn <- lift (key xn);;
          xr <- get r;; kr <- lift (key xr);;
          (if lt kn kr then
             l <- insert_fuel fuel (n_left xr) nd;; set_left r (Some l)
           else
             q <- insert_fuel fuel (n_right xr) nd;; set_right r (Some q));;;
          update_height r;;;
          b <- balance_of r;;
          (* key of a child of r *)
          let childkey (side : node X -> option nat) : M heap K :=
            x <- get r;; c <- need (side x);; xc <- get c;; lift (key xc) in
          c1 <- (if (1 <? b)%Z then kc <- childkey n_left;; ret (lt kn kc) else ret false);;
          if c1 : bool then rotate_right r else
          c2 <- (if (b <? -1)%Z then kc <- childkey n_right;; ret (lt kc kn) else ret false);;
          if c2 : bool then rotate_left r else
          c3 <- (if (1 <? b)%Z then kc <- childkey n_left;; ret (lt kc kn) else ret false);;
          if c3 : bool then
            x <- get r;; l <- need (n_left x);; l' <- rotate_left l;;
            set_left r (Some l');;; rotate_right r
          else
          c4 <- (if (b <? -1)%Z then kc <- childkey n_right;; ret (lt kn kc) else ret false);;
          if c4 : bool then
            x <- get r;; q <- need (n_right x);; q' <- rotate_right q;;
            set_right r (Some q');;; rotate_left r
          else ret r
      end
  end.
Definition insert (root : option nat) (nd : nat) : M heap nat :=
  fun h => insert_fuel (S (length h)) root nd h.

(* tree/tree.py:146-179 delete.  Line 167 reads temp.value, an attribute no node has. *)
Fixpoint delete_fuel (fuel : nat) (root : option nat) (k : K) : M heap (option nat) :=
  match root with
  | None => ret None
  | Some r =>
      match fuel with
      | O => raise OutOfFuel
      | S fuel =>
          xr <- get r;; kr <- lift (key xr);;
          let finish : M heap (option nat) := update_height r;;; r' <- balance r;; ret (Some r') in
          if lt k kr then
            l <- delete_fuel fuel (n_left xr) k;; set_left r l;;; finish
          else if lt kr k then
            q <- delete_fuel fuel (n_right xr) k;; set_right r q;;; finish
          else
            match n_left xr, n_right xr with
            | None, q => ret q
            | l, None => ret l
            | Some _, Some q =>
                temp <- minimum q;;
                xt <- get temp;;
                upd r (with_data (n_data xt));;;
                raise AttributeError
            end
      end
  end.
Definition delete (root : option nat) (k : K) : M heap (option nat) :=
  fun h => delete_fuel (S (length h)) root k h.
End Search.
End Tree.
