(** Model of H/base_defs/sort.hpp.  A range is a list (the whole array) with
    index bounds; iterators are indices, reading or writing outside the array is
    undefined ([None]).  Moving an element out of a slot that is overwritten
    later is modelled as copying it.  The comparator is an arbitrary function
    into [comparison] ([strong_ordering]). *)
From Verif Require Import Base.
Local Open Scope omonad_scope.

Section Sort.
  Variable A : Type.
  Variable cmp : A -> A -> comparison.

  (** sort.hpp:46,50,103 [compare(x,y)==strong_ordering::greater]. *)
  Definition gtb (x y : A) : bool := match cmp x y with Gt => true | _ => false end.
  (** sort.hpp:125 [compare(x,y)==strong_ordering::less]. *)
  Definition ltb (x y : A) : bool := match cmp x y with Lt => true | _ => false end.

  (** sort.hpp:52,75,126,130 [swap(x,y)]. *)
  Definition swap (a : list A) (i j : nat) : option (list A) :=
    x <- nth_error a i ;; y <- nth_error a j ;;
    a1 <- set_nth i y a ;; set_nth j x a1.

  (** sort.hpp:42-50: the index of the larger of [a[cur]] and child [c] if the
      child lies before [e]. *)
  Definition pick (a : list A) (e c cur : nat) : option nat :=
    if Nat.ltb c e then
      x <- nth_error a c ;; y <- nth_error a cur ;; Some (if gtb x y then c else cur)
    else Some cur.

  (** sort.hpp:37-55 [heapify(begin,end,i)]; [f] bounds the recursion depth,
      exhaustion is [None]. *)
  Fixpoint heapify (f : nat) (a : list A) (b e i : nat) : option (list A) :=
    match f with
    | O => None
    | S f' =>
        let left_child := b + 2 * (i - b) + 1 in
        let right_child := left_child + 1 in
        l1 <- pick a e left_child i ;;
        l2 <- pick a e right_child l1 ;;
        if Nat.eqb l2 i then Some a
        else a' <- swap a i l2 ;; heapify f' a' b e l2
    end.

  (** sort.hpp:62-63: the loop [for(i=k-1;i>=0;i--) heapify(begin,end,begin+i)]. *)
  Fixpoint build_loop (k : nat) (a : list A) (b e : nat) : option (list A) :=
    match k with
    | O => Some a
    | S i => a' <- heapify (S (e - b)) a b e (b + i) ;; build_loop i a' b e
    end.
  (** sort.hpp:58-64 [build_max_heap]. *)
  Definition build_max_heap (a : list A) (b e : nat) : option (list A) :=
    build_loop ((e - b) / 2) a b e.
  (** sort.hpp:74-77: the loop [for(i=k-1;i>=0;i--)]. *)
  Fixpoint heapsort_loop (k : nat) (a : list A) (b e : nat) : option (list A) :=
    match k with
    | O => Some a
    | S i =>
        a1 <- swap a b (b + i) ;;
        a2 <- heapify (S (e - b)) a1 b (b + i) b ;;
        heapsort_loop i a2 b e
    end.
  (** sort.hpp:67-78 [heapsort(begin,end)]. *)
  Definition heapsort (a : list A) (b e : nat) : option (list A) :=
    a' <- build_max_heap a b e ;; heapsort_loop (e - b) a' b e.

  (** sort.hpp:103-108: shift the elements larger than the key; [h] is [j+1]. *)
  Fixpoint ins_shift (h : nat) (a : list A) (b : nat) (key : A) : option (list A) :=
    match h with
    | O => set_nth 0 key a
    | S j =>
        if Nat.leb b j then
          x <- nth_error a j ;;
          if gtb x key then a' <- set_nth h x a ;; ins_shift j a' b key
          else set_nth h key a
        else set_nth h key a
    end.
  (** sort.hpp:98-108: [k] further iterations starting at [i]. *)
  Fixpoint ins_loop (k i : nat) (a : list A) (b : nat) : option (list A) :=
    match k with
    | O => Some a
    | S k' =>
        key <- nth_error a i ;; a' <- ins_shift i a b key ;; ins_loop k' (S i) a' b
    end.
  (** sort.hpp:96-109 [insertion_sort(begin,end)]. *)
  Definition insertion_sort (a : list A) (b e : nat) : option (list A) :=
    ins_loop (e - (b + 1)) (b + 1) a b.

  (** sort.hpp:123-128: [k] further iterations of the partition loop. *)
  Fixpoint part_loop (k : nat) (a : list A) (pv i j : nat) : option (list A * nat) :=
    match k with
    | O => Some (a, i)
    | S k' =>
        x <- nth_error a j ;; p <- nth_error a pv ;;
        if ltb x p then a' <- swap a i j ;; part_loop k' a' pv (S i) (S j)
        else part_loop k' a pv i (S j)
    end.
  (** sort.hpp:119-133 [partition(begin,end)]. *)
  Definition partition (a : list A) (b e : nat) : option (list A * nat) :=
    ' (a1, i) <- part_loop (e - 1 - b) a (e - 1) b b ;;
    a2 <- swap a1 i (e - 1) ;; Some (a2, i).

  (** sort.hpp:137-144 [quicksort(begin,end)]; the while loop is written as a
      second recursive call. *)
  Fixpoint quicksort (f : nat) (a : list A) (b e : nat) : option (list A) :=
    match f with
    | O => None
    | S f' =>
        if Nat.ltb 1 (e - b) then
          ' (a1, p) <- partition a b e ;;
          a2 <- quicksort f' a1 b p ;; quicksort f' a2 (p + 1) e
        else Some a
    end.

  (** sort.hpp:153 [size_threshold]. *)
  Definition size_threshold : nat := 16.
  (** sort.hpp:156-171 [introsort_loop(begin,end,depth_limit)]. *)
  Fixpoint introsort_loop (f d : nat) (a : list A) (b e : nat) : option (list A) :=
    match f with
    | O => None
    | S f' =>
        if Nat.ltb size_threshold (e - b) then
          match d with
          | O => heapsort a b e
          | S d' =>
              ' (a1, p) <- partition a b e ;;
              a2 <- introsort_loop f' d' a1 (p + 1) e ;;
              introsort_loop f' d' a2 b p
          end
        else insertion_sort a b e
    end.
  (** sort.hpp:175-183 [introsort(begin,end)].  The depth limit [2*log(n,2)] comes
      from a floating-point logarithm; it is the arbitrary argument [d]. *)
  Definition introsort (d : nat) (a : list A) (b e : nat) : option (list A) :=
    if Nat.leb (e - b) size_threshold then insertion_sort a b e
    else introsort_loop (S (e - b)) d a b e.
  (** sort.hpp:191-194 [sort(begin,end)]. *)
  Definition sort (d : nat) (a : list A) (b e : nat) : option (list A) := introsort d a b e.
  (** sort.hpp:195-199 [sort(array)]; likewise 88-92, 110-114, 145-149, 184-188. *)
  Definition sort_all (d : nat) (a : list A) : option (list A) := sort d a 0 (length a).
End Sort.
