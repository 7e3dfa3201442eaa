(* Heapq.v -- the binary heap behind queue.PriorityQueue (CPython's heapq module),
   used by algorithm.py:61,118,163,464,468.  Not part of /repo: the heap is modelled
   from CPython's Lib/heapq.py so that the order in which events of equal priority
   come out is the one a user gets. *)
From stdpp Require Import base list.

Section Heapq.
Context {T : Type} (lt : T -> T -> bool).

(* Lib/heapq.py _siftdown(heap, startpos, pos) with newitem = heap[pos] *)
Fixpoint siftdown (fuel : nat) (h : list T) (startpos pos : nat) (newitem : T) : list T :=
  match fuel with
  | O => <[pos := newitem]> h
  | S fuel =>
      if startpos <? pos then
        let parentpos := (pos - 1) / 2 in
        match h !! parentpos with
        | Some parent =>
            if lt newitem parent then siftdown fuel (<[pos := parent]> h) startpos parentpos newitem
            else <[pos := newitem]> h
        | None => <[pos := newitem]> h
        end
      else <[pos := newitem]> h
  end.

(* Lib/heapq.py _siftup(heap, pos), the loop moving the smaller child up; returns
   the heap and the final position *)
Fixpoint siftup (fuel : nat) (h : list T) (pos : nat) : list T * nat :=
  match fuel with
  | O => (h, pos)
  | S fuel =>
      let childpos := 2 * pos + 1 in
      match h !! childpos with
      | None => (h, pos)
      | Some c =>
          match h !! (childpos + 1) with
          | Some r =>
              if lt c r then siftup fuel (<[pos := c]> h) childpos
              else siftup fuel (<[pos := r]> h) (childpos + 1)
          | None => siftup fuel (<[pos := c]> h) childpos
          end
      end
  end.

(* Lib/heapq.py heappush *)
Definition heappush (h : list T) (x : T) : list T :=
  siftdown (S (length h)) (h ++ [x]) 0 (length h) x.

(* Lib/heapq.py heappop; None: the heap is empty (PriorityQueue.get would block) *)
Definition heappop (h : list T) : option (T * list T) :=
  match reverse h with
  | [] => None
  | lastelt :: rest =>
      let h' := reverse rest in
      match h' with
      | [] => Some (lastelt, [])
      | returnitem :: _ =>
          let '(h2, pos) := siftup (S (length h')) (<[0 := lastelt]> h') 0 in
          Some (returnitem, siftdown (S pos) (<[pos := lastelt]> h2) 0 pos lastelt)
      end
  end.
End Heapq.
