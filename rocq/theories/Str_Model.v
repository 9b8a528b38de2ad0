(** Model of the string representation: the nodes of
    H/string/string_data_t/*.hpp, their reading methods and their mutating
    methods.  A string is a handle to a node; a node may hold handles to other
    nodes, and a node is changed in place when it has exactly one handle.

    Characters are integers.  The heap is a list of cells: a node and its
    cached hash ([_hash_cache], [_has_hash_cache],
    H/string/string_data_t/base_string_data_t.hpp:396-401).  Node 0 is the null
    node (H/string/string_data_t/null_string_data_t.hpp:88-91).

    Simplifications.  Nodes are not freed: a node without handles stays in the
    heap, unreachable (that counting handles is exact is C37).  Sizes are
    natural numbers; a subtraction below zero, which wraps in the code, is
    undefined here.  Of a buffer larger than its used part only the used
    characters and the capacity are kept; reading unused characters is
    undefined.  The cached search patterns, the shared block of
    [same_value_compress_string_data_t] ([_static_data_p]) and the shrinking of
    unused capacity ([shrink]) are left out.  Handles to a replaced node are
    redirected ([replace_check], H/base/memory/ptr/ptr/base_ptr_t.hpp:115-119)
    when a method is called through them that may change nodes; when reading,
    they are followed without being redirected. *)
From Verif Require Import Base Ref_Model List_Model.
Local Open Scope res_scope.
Local Open Scope nat_scope.

(** The node types:
    [null_string_data_t], [constexpr_string_data_t] (:52-53 [_m], [_size]),
    [comn_string_data_t] (:53 [_m], without its terminator),
    [substr_string_data_t] (:53-55), [head_apply_string_data_t] (:53-56; [d] the
    used part of [_m], [cap] its size), [end_apply_string_data_t] (:53-56),
    [sum_string_data_t] (:53-56), [erased_string_data_t] (:53-56),
    [inserted_string_data_t] (:53-57), [same_value_compress_string_data_t]
    (:53-54), and a node that was replaced by another
    (H/base/memory/other/replace_able.hpp:36).  Line numbers refer to the files
    of these names in H/string/string_data_t/. *)
Inductive kind :=
| KNull
| KConst (d : list Z)
| KComn (d : list Z)
| KSub (to b n : nat)
| KHead (to tn : nat) (d : list Z) (cap : nat)
| KEnd (to tn : nat) (d : list Z) (cap : nat)
| KSum (x y xn yn : nat)
| KErase (to tn p n : nat)
| KIns (to x tn p n : nat)
| KSame (n : nat) (c : Z)
| KFwd (to : nat).

(** The handles a node holds (the members of type [ptr_t] of the classes above,
    and [replace_able::_m], which holds a handle when replaced). *)
Definition children (k : kind) : list nat :=
  match k with
  | KNull | KConst _ | KComn _ | KSame _ _ => []
  | KSub to _ _ | KHead to _ _ _ | KEnd to _ _ _ | KErase to _ _ _ | KFwd to => [to]
  | KSum x y _ _ => [x; y]
  | KIns to x _ _ _ => [to; x]
  end.

(** The heap: nodes and cached hashes. *)
Definition heap := list (kind * option Z).

(** Access to a node (language semantics). *)
Definition kd (H : heap) (o : nat) : res kind :=
  match nth_error H o with Some (k, _) => Ok k | None => Ub end.
(** Assignment to the members of a node followed by
    [base_string_data_t::self_changed]
    (H/string/string_data_t/base_string_data_t.hpp:428-430): the cached hash is
    dropped. *)
Definition put (H : heap) (o : nat) (k : kind) : heap := upd H o (k, None).
(** Assignment to the members of a node without [self_changed]. *)
Definition put_keep (H : heap) (o : nat) (k : kind) : heap :=
  upd H o (k, match nth_error H o with Some (_, c) => c | None => None end).
(** [get<node type>(...)]: a new node (H/base/memory/get/defs.hpp:486-504). *)
Definition mk (H : heap) (k : kind) : heap * nat := (H ++ [(k, None)], length H).
(** Size subtraction; see the simplifications. *)
Definition sub_chk (a b : nat) : res nat := if Nat.leb b a then Ok (a - b) else Ub.
(** [n] characters of an array starting at [p] (language semantics). *)
Definition slice (d : list Z) (p n : nat) : res (list Z) :=
  if Nat.leb (p + n) (length d) then Ok (firstn n (skipn p d)) else Ub.

(** [ptr_t::get]/[operator->]: follow replacements
    (H/base/memory/other/replace_able.hpp:43-48,
    H/base/memory/ptr/ptr/base_ptr_t.hpp:115-119,134-137). *)
Fixpoint deref (fuel : nat) (H : heap) (o : nat) : res nat :=
  match fuel with
  | O => Out
  | S f => k <- kd H o ;; match k with KFwd to => deref f H to | _ => Ok o end
  end.

(** [get_size] (H/string/string_data_t/: null:59, constexpr:96, comn:112,
    substr:78, head_apply:119, end_apply:134, sum:87, erased:84, inserted:85,
    same_value_compress:72). *)
Definition ksize (k : kind) : res nat :=
  match k with
  | KNull => Ok 0
  | KConst d => Ok (length d)
  | KComn d => Ok (length d)
  | KSub _ _ n => Ok n
  | KHead _ tn d _ => Ok (length d + tn)
  | KEnd _ tn d _ => Ok (length d + tn)
  | KSum _ _ xn yn => Ok (xn + yn)
  | KErase _ tn _ n => sub_chk tn n
  | KIns _ _ tn _ n => Ok (tn + n)
  | KSame n _ => Ok n
  | KFwd _ => Ub
  end.
(** A handle's [->get_size()]. *)
Definition size (fuel : nat) (H : heap) (o : nat) : res nat :=
  o1 <- deref fuel H o ;; k <- kd H o1 ;; ksize k.

(** ** Reading *)

(** [arec(index)] (H/string/string_data_t/: null:72, constexpr:100, comn:116,
    substr:82, head_apply:169-176, end_apply:182-187, sum:105-110,
    erased:110-115, inserted:152-159, same_value_compress:78-80).  The
    character at [index] of a common node may be its terminator. *)
Fixpoint arec (fuel : nat) (H : heap) (o i : nat) : res Z :=
  match fuel with
  | O => Out
  | S f =>
    k <- kd H o ;;
    match k with
    | KNull => Ok 0%Z
    | KConst d => def_ (nth_error d i)
    | KComn d => def_ (nth_error (d ++ [0%Z]) i)
    | KSub to b _ => arec f H to (i + b)
    | KHead to _ d _ => if Nat.ltb i (length d) then def_ (nth_error d i) else arec f H to (i - length d)
    | KEnd to tn d _ => if Nat.ltb i tn then arec f H to i else def_ (nth_error d (i - tn))
    | KSum x y xn _ => if Nat.ltb i xn then arec f H x i else arec f H y (i - xn)
    | KErase to _ p n => if Nat.leb p i then arec f H to (i + n) else arec f H to i
    | KIns to x _ p n =>
      if andb (Nat.leb p i) (Nat.ltb i (p + n)) then arec f H x (i - p)
      else if Nat.leb (p + n) i then arec f H to (i - n)
      else arec f H to i
    | KSame _ c => Ok c
    | KFwd to => arec f H to i
    end
  end.

(** [copy_part_data_to(to,pos,size)]: the characters written
    (H/string/string_data_t/: null:70, constexpr:98, comn:114, substr:80,
    head_apply:151-167, end_apply:165-180, sum:89-103, erased:86-97,
    inserted:87-106, same_value_compress:74-76).  The null node writes nothing,
    which is right only for size 0. *)
Fixpoint copy_part (fuel : nat) (H : heap) (o p n : nat) : res (list Z) :=
  match fuel with
  | O => Out
  | S f =>
    k <- kd H o ;;
    match k with
    | KNull => if Nat.eqb n 0 then Ok [] else Ub
    | KConst d => slice d p n
    | KComn d => slice d p n
    | KSub to b _ => copy_part f H to (p + b) n
    | KHead to _ d _ =>
      if Nat.ltb p (length d) then
        let m := Nat.min (length d - p) n in
        a <- slice d p m ;;
        if Nat.eqb n m then Ok a else b <- copy_part f H to 0 (n - m) ;; Ok (a ++ b)
      else copy_part f H to (p - length d) n
    | KEnd to tn d _ =>
      if Nat.leb (p + n) tn then copy_part f H to p n
      else if Nat.ltb p tn then
        a <- copy_part f H to p (tn - p) ;;
        b <- slice d 0 (n - (tn - p)) ;;
        Ok (a ++ b)
      else slice d (p - tn) n
    | KSum x y xn _ =>
      if Nat.ltb p xn then
        let m := Nat.min (p + n) xn - p in
        a <- copy_part f H x p m ;;
        if Nat.eqb n m then Ok a else b <- copy_part f H y 0 (n - m) ;; Ok (a ++ b)
      else copy_part f H y (p - xn) n
    | KErase to _ q m =>
      if Nat.ltb (p + n) q then copy_part f H to p n
      else if Nat.leb q p then copy_part f H to (p + m) n
      else
        a <- copy_part f H to p (q - p) ;;
        b <- copy_part f H to (q + m) (n - (q - p)) ;;
        Ok (a ++ b)
    | KIns to x _ q m =>
      if Nat.ltb (p + n) q then copy_part f H to p n
      else if Nat.ltb (q + m) p then copy_part f H to (p - m) n
      else
        a <- (if Nat.ltb p q then copy_part f H to p (q - p) else Ok []) ;;
        let n1 := n - length a in
        let j := Nat.min n1 m in
        b <- copy_part f H x 0 j ;;
        if Nat.eqb (n1 - j) 0 then Ok (a ++ b)
        else c <- copy_part f H to q (n1 - j) ;; Ok (a ++ b ++ c)
    | KSame _ c => Ok (repeat c n)
    | KFwd to => copy_part f H to p n
    end
  end.

(** [get_the_largest_complete_data_block_begin_form(begin)]: the characters of
    the block (H/string/string_data_t/: null:83, constexpr:108, comn:129,
    substr:196-200, head_apply:318-327, end_apply:313-320, sum:257-262,
    erased:248-257, inserted:353-364, same_value_compress:170-178, for a
    character type that is trivial; its limit 512 is :56). *)
Fixpoint block (fuel : nat) (H : heap) (o i : nat) : res (list Z) :=
  match fuel with
  | O => Out
  | S f =>
    k <- kd H o ;;
    match k with
    | KNull => Ok []
    | KConst d => slice d i (length d - i)
    | KComn d => slice d i (length d - i)
    | KSub to b n => r <- block f H to (b + i) ;; m <- sub_chk n i ;; Ok (firstn (Nat.min (length r) m) r)
    | KHead to _ d _ => if Nat.leb (length d) i then block f H to (i - length d) else Ok (skipn i d)
    | KEnd to tn d _ => if Nat.ltb i tn then block f H to i else slice d (i - tn) (length d - (i - tn))
    | KSum x y xn _ => if Nat.ltb i xn then block f H x i else block f H y (i - xn)
    | KErase to _ p n =>
      if Nat.ltb i p then
        r <- block f H to i ;;
        Ok (if Nat.ltb p (length r) then firstn p r else r)
      else block f H to (i + n)
    | KIns to x _ p n =>
      if andb (Nat.leb p i) (Nat.ltb i (p + n)) then block f H x (i - p)
      else if Nat.leb (p + n) i then block f H to (i - n)
      else
        r <- block f H to i ;;
        Ok (if Nat.ltb p (length r + i) then firstn (p - i) r else r)
    | KSame n c => m <- sub_chk n i ;; Ok (repeat c (Nat.min m 512))
    | KFwd to => block f H to i
    end
  end.

(** ** Changing *)

Section Changing.
(** [is_unique()] (H/string/string_data_t/base_string_data_t.hpp:68) for a heap,
    the handles held by variables and temporaries, and a node.  The exact
    counter is [uniq] below; a counter that is too large for a moment (by a
    handle not yet redirected after a replacement) is another instance. *)
Variable uq : heap -> list nat -> nat -> bool.
(** [get_next_gold_size_to_resize_for_array] (H/base_defs/math.hpp:585-590):
    the product with the golden ratio, rounded down. *)
Variable gold : nat -> nat.

(** [get<substr_string_data_t>(to,b,n)] with its [null_equivalent_check]
    (H/string/string_data_t/substr_string_data_t.hpp:57-64). *)
Definition mk_sub (H : heap) (to b n : nat) : heap * nat :=
  if Nat.eqb n 0 then mk H (KFwd 0) else mk H (KSub to b n).
(** [base_string_data_t::get_substr_data]
    (H/string/string_data_t/substr_string_data_t.hpp:213-219). *)
Definition sub_base (fuel : nat) (H : heap) (o b n : nat) : res (heap * nat) :=
  m <- size fuel H o ;;
  Ok (if andb (Nat.eqb b 0) (Nat.eqb n m) then (H, o) else mk_sub H o b n).
(** [get_substr_data(begin,size)] (H/string/string_data_t/: null:60,
    constexpr:76-81,86-88, substr:70, head_apply:97-102, end_apply:112-117,
    sum:65-72, erased:67-74, inserted:61-70, same_value_compress:60-64,69-71). *)
Fixpoint get_sub (fuel : nat) (H : heap) (o b n : nat) : res (heap * nat) :=
  match fuel with
  | O => Out
  | S f =>
    k <- kd H o ;;
    match k with
    | KNull => Ok (H, o)
    | KConst d => d' <- slice d b n ;; Ok (if Nat.eqb n 0 then mk H (KFwd 0) else mk H (KConst d'))
    | KComn _ => sub_base f H o b n
    | KSub to b0 _ => Ok (mk_sub H to (b + b0) n)
    | KHead to _ d _ => if Nat.leb (length d) b then get_sub f H to (b - length d) n else sub_base f H o b n
    | KEnd to tn _ _ => if Nat.leb (b + n) tn then get_sub f H to b n else sub_base f H o b n
    | KSum x y xn _ =>
      if Nat.leb (b + n) xn then get_sub f H x b n
      else if Nat.leb xn b then get_sub f H y (b - xn) n
      else sub_base f H o b n
    | KErase to _ p m =>
      if Nat.ltb (b + n) p then get_sub f H to b n
      else if Nat.leb p b then get_sub f H to (b + m) n
      else sub_base f H o b n
    | KIns to x _ p m =>
      if Nat.ltb (b + n) p then get_sub f H to b n
      else if Nat.ltb (p + m) b then get_sub f H to (b - m) n
      else if andb (Nat.leb p b) (Nat.leb (b + n) (p + m)) then get_sub f H x (b - p) n
      else sub_base f H o b n
    | KSame m c => Ok (if Nat.eqb n m then (H, o) else if Nat.eqb n 0 then (H, 0) else mk H (KSame n c))
    | KFwd to => get_sub f H to b n
    end
  end.

(** The same node holding other handles. *)
Definition with_children (k : kind) (l : list nat) : kind :=
  match k, l with
  | KSub _ b n, [to] => KSub to b n
  | KHead _ tn d cap, [to] => KHead to tn d cap
  | KEnd _ tn d cap, [to] => KEnd to tn d cap
  | KSum _ _ xn yn, [x; y] => KSum x y xn yn
  | KErase _ tn p n, [to] => KErase to tn p n
  | KIns _ _ tn p n, [to; x] => KIns to x tn p n
  | KFwd _, [to] => KFwd to
  | _, _ => k
  end.
(** [deref] of several handles. *)
Fixpoint derefs (fuel : nat) (H : heap) (l : list nat) : res (list nat) :=
  match l with
  | [] => Ok []
  | c :: t => c' <- deref fuel H c ;; t' <- derefs fuel H t ;; Ok (c' :: t')
  end.
(** [replace_check] on the handles of a node
    (H/base/memory/ptr/ptr/base_ptr_t.hpp:115-119): they are redirected to the
    replacements.  The code redirects each handle when it is used; here all
    handles of the node are redirected together. *)
Definition settle (fuel : nat) (H : heap) (o : nat) : res (heap * kind) :=
  k <- kd H o ;;
  match children k with
  | [] => Ok (H, k)
  | l => l' <- derefs fuel H l ;;
         let k' := with_children k l' in Ok (put_keep H o k', k')
  end.

(** [apply_str_to_begin(string_view_t)] ([e = false]) and
    [apply_str_to_end(string_view_t)] ([e = true])
    (H/string/string_data_t/: null:61,63, substr:91-100,111-120,
    head_apply:58-65,190-206,214-223,356-362,
    end_apply:58-65,200-215,220-229,345-351, sum:122-131,142-151,
    erased:128-139,152-161, inserted:174-191,210-225), and
    [marge_same_value_type] (head_apply:74-84, end_apply:89-99), which
    [self_changed] (head_apply:85-95, end_apply:100-110) calls.  All other node
    types use the base method. *)
Definition apply_base (fuel : nat) (H : heap) (e : bool) (o : nat) (s : list Z) : res (heap * nat) :=
  match s with
  | [] => Ok (H, o)
  | _ =>
    n <- size fuel H o ;;
    Ok (mk H (if e then KEnd o n s (gold (n + length s)) else KHead o n s (gold (n + length s))))
  end.
(** See [apply_base]. *)
Fixpoint apply_v (fuel : nat) (H : heap) (roots : list nat) (e : bool) (o : nat) (s : list Z) {struct fuel} : res (heap * nat) :=
  match fuel with
  | O => Out
  | S f =>
    let m := length s in
    k <- kd H o ;;
    if uq H roots o then
      '(H0, k0) <- settle f H o ;;
      match k0 with
      | KNull => Ok (mk H0 (KComn s))
      | KConst _ | KComn _ | KSame _ _ => apply_base f H0 e o s
      | KSub to b n =>
        t <- size f H0 to ;;
        if (if e then Nat.eqb (b + n) t else Nat.eqb b 0) then
          '(H1, to') <- apply_v f H0 roots e to s ;;
          Ok (put H1 o (KSub to' b (n + m)), o)
        else apply_base f H0 e o s
      | KHead to tn d cap =>
        if e then
          '(H1, to') <- apply_v f H0 roots e to s ;;
          H2 <- merge f (put H1 o (KHead to' (tn + m) d cap)) roots o ;;
          Ok (H2, o)
        else
          let cap' := if Nat.leb m (cap - length d) then cap else gold (length d + tn + m) in
          H2 <- merge f (put H0 o (KHead to tn (s ++ d) cap')) roots o ;;
          Ok (H2, o)
      | KEnd to tn d cap =>
        if e then
          let cap' := if Nat.leb m (cap - length d) then cap else gold (length d + tn + m) in
          H2 <- merge f (put H0 o (KEnd to tn (d ++ s) cap')) roots o ;;
          Ok (H2, o)
        else
          '(H1, to') <- apply_v f H0 roots e to s ;;
          H2 <- merge f (put H1 o (KEnd to' (tn + m) d cap)) roots o ;;
          Ok (H2, o)
      | KSum x y xn yn =>
        if e then
          '(H1, y') <- apply_v f H0 roots e y s ;; Ok (put H1 o (KSum x y' xn (yn + m)), o)
        else
          '(H1, x') <- apply_v f H0 roots e x s ;; Ok (put H1 o (KSum x' y (xn + m) yn), o)
      | KErase to tn p n =>
        '(H1, to') <- apply_v f H0 roots e to s ;;
        Ok (put H1 o (KErase to' (tn + m) (if e then p else p + m) n), o)
      | KIns to x tn p n =>
        if (if e then Nat.eqb p tn else Nat.eqb p 0) then
          '(H1, x') <- apply_v f H0 roots e x s ;; Ok (put H1 o (KIns to x' tn p (n + m)), o)
        else
          '(H1, to') <- apply_v f H0 roots e to s ;;
          Ok (put H1 o (KIns to' x (tn + m) (if e then p else p + m) n), o)
      | KFwd _ => Ub
      end
    else match k with
         | KNull => Ok (mk H (KComn s))
         | KFwd _ => Ub
         | _ => apply_base f H e o s
         end
  end
with merge (fuel : nat) (H : heap) (roots : list nat) (o : nat) {struct fuel} : res heap :=
  match fuel with
  | O => Out
  | S f =>
    '(H0, k) <- settle f H o ;;
    match k with
    | KHead p _ d _ =>
      kp <- kd H0 p ;;
      match kp with
      | KHead _ _ _ _ =>
        if uq H0 roots p then
          '(H1, _) <- apply_v f H0 roots false p d ;;
          k1 <- kd H1 p ;;
          match k1 with
          | KHead to1 tn1 d1 cap1 => merge f (put H1 o (KHead to1 tn1 d1 cap1)) roots o
          | _ => Ub
          end
        else Ok H0
      | _ => Ok H0
      end
    | KEnd p _ d _ =>
      kp <- kd H0 p ;;
      match kp with
      | KEnd _ _ _ _ =>
        if uq H0 roots p then
          '(H1, _) <- apply_v f H0 roots true p d ;;
          k1 <- kd H1 p ;;
          match k1 with
          | KEnd to1 tn1 d1 cap1 => merge f (put H1 o (KEnd to1 tn1 d1 cap1)) roots o
          | _ => Ub
          end
        else Ok H0
      | _ => Ok H0
      end
    | _ => Ub
    end
  end.

(** [get<sum_string_data_t>(before,after)] with its constructor
    (H/string/string_data_t/sum_string_data_t.hpp:58-63). *)
Definition mk_sum (fuel : nat) (H : heap) (x y : nat) : res (heap * nat) :=
  xn <- size fuel H x ;;
  yn <- size fuel H y ;;
  Ok (if Nat.eqb xn 0 then mk H (KFwd y)
      else if Nat.eqb yn 0 then mk H (KFwd x)
      else mk H (KSum x y xn yn)).

(** [apply_str_to_begin(ptr_t)], [apply_str_to_end(ptr_t)]
    (H/string/string_data_t/: null:62,64, substr:101-110,121-130,
    head_apply:207-210,224-233, end_apply:216-219,230-239, sum:132-141,152-161,
    277-284, erased:140-151,162-171, inserted:192-209,226-241). *)
Fixpoint apply_p (fuel : nat) (H : heap) (roots : list nat) (e : bool) (o s : nat) {struct fuel} : res (heap * nat) :=
  match fuel with
  | O => Out
  | S f =>
    let base H := if e then mk_sum f H o s else mk_sum f H s o in
    k <- kd H o ;;
    if uq H roots o then
      '(H0, k0) <- settle f H o ;;
      match k0 with
      | KNull => Ok (H0, s)
      | KConst _ | KComn _ | KSame _ _ => base H0
      | KSub to b n =>
        t <- size f H0 to ;;
        if (if e then Nat.eqb (b + n) t else Nat.eqb b 0) then
          '(H1, to') <- apply_p f H0 roots e to s ;;
          m <- size f H1 s ;;
          Ok (put H1 o (KSub to' b (n + m)), o)
        else base H0
      | KHead to tn d cap =>
        if e then
          '(H1, to') <- apply_p f H0 roots e to s ;;
          m <- size f H1 s ;;
          H2 <- merge f (put H1 o (KHead to' (tn + m) d cap)) roots o ;;
          Ok (H2, o)
        else base H0
      | KEnd to tn d cap =>
        if e then base H0
        else
          '(H1, to') <- apply_p f H0 roots e to s ;;
          m <- size f H1 s ;;
          H2 <- merge f (put H1 o (KEnd to' (tn + m) d cap)) roots o ;;
          Ok (H2, o)
      | KSum x y xn yn =>
        if e then
          '(H1, y') <- apply_p f H0 roots e y s ;;
          m <- size f H1 s ;; Ok (put H1 o (KSum x y' xn (yn + m)), o)
        else
          '(H1, x') <- apply_p f H0 roots e x s ;;
          m <- size f H1 s ;; Ok (put H1 o (KSum x' y (xn + m) yn), o)
      | KErase to tn p n =>
        '(H1, to') <- apply_p f H0 roots e to s ;;
        m <- size f H1 s ;;
        Ok (put H1 o (KErase to' (tn + m) (if e then p else p + m) n), o)
      | KIns to x tn p n =>
        m <- size f H0 s ;;
        if (if e then Nat.eqb p tn else Nat.eqb p 0) then
          '(H1, x') <- apply_p f H0 roots e x s ;; Ok (put H1 o (KIns to x' tn p (n + m)), o)
        else
          '(H1, to') <- apply_p f H0 roots e to s ;;
          Ok (put H1 o (KIns to' x (tn + m) (if e then p else p + m) n), o)
      | KFwd _ => Ub
      end
    else match k with
         | KNull => Ok (H, s)
         | KFwd _ => Ub
         | _ => base H
         end
  end.

(** [get_unique_c_str] and [arec_set] of the base class
    (H/string/string_data_t/comn_string_data_t.hpp:163-172) with the
    constructor of the copy (:78-82). *)
Definition set_base (fuel : nat) (H : heap) (o i : nat) (a : Z) : res (heap * nat) :=
  n <- size fuel H o ;;
  d <- copy_part fuel H o 0 n ;;
  if Nat.ltb i n then Ok (mk H (KComn (upd d i a))) else Ub.

(** [arec_set(index,a,p)]: the heap and the handle [p] afterwards
    (H/string/string_data_t/: null:73, constexpr:103, comn:117-124, substr:83-90,
    head_apply:177-189, end_apply:188-198, sum:111-121, erased:117-127,
    inserted:161-173, same_value_compress:81-109).  An inserted node passes on
    the handle of the whole string: when its part answers with another node,
    the whole string becomes that node and the inserted node is destroyed
    before it is written to. *)
Fixpoint arec_set (fuel : nat) (H : heap) (roots : list nat) (o i : nat) (a : Z) {struct fuel} : res (heap * nat) :=
  match fuel with
  | O => Out
  | S f =>
    k <- kd H o ;;
    match k with
    | KNull => Ok (H, o)
    | KConst _ => set_base f H o i a
    | KSame n c =>
      if Z.eqb a c then Ok (H, o)
      else if Nat.eqb n 1 then Ok (put_keep H o (KSame 1 a), o)
      else if Nat.ltb 512 n then
        let j := Nat.min i 256 in
        let '(H1, t1) := mk H (KComn (upd (repeat c 512) j a)) in
        '(H2, t2) <- (if Nat.ltb 256 i then
                        let '(H', q) := mk H1 (KSame (i - 256) c) in mk_sum f H' q t1
                      else Ok (H1, t1)) ;;
        m <- size f H2 t2 ;;
        r <- sub_chk n m ;;
        if Nat.eqb r 0 then Ok (H2, t2)
        else let '(H', q) := mk H2 (KSame r c) in mk_sum f H' t2 q
      else set_base f H o i a
    | _ =>
      if uq H roots o then
        '(H0, k0) <- settle f H o ;;
        match k0 with
        | KComn d => if Nat.ltb i (length d) then Ok (put H0 o (KComn (upd d i a)), o) else Ub
        | KSub to b n =>
          '(H1, to') <- arec_set f H0 roots to (i + b) a ;; Ok (put H1 o (KSub to' b n), o)
        | KHead to tn d cap =>
          if Nat.ltb i (length d) then
            H2 <- merge f (put H0 o (KHead to tn (upd d i a) cap)) roots o ;; Ok (H2, o)
          else
            '(H1, to') <- arec_set f H0 roots to (i - length d) a ;;
            H2 <- merge f (put H1 o (KHead to' tn d cap)) roots o ;; Ok (H2, o)
        | KEnd to tn d cap =>
          if Nat.ltb i tn then
            '(H1, to') <- arec_set f H0 roots to i a ;;
            H2 <- merge f (put H1 o (KEnd to' tn d cap)) roots o ;; Ok (H2, o)
          else if Nat.ltb (i - tn) (length d) then
            H2 <- merge f (put H0 o (KEnd to tn (upd d (i - tn) a) cap)) roots o ;; Ok (H2, o)
          else Ub
        | KSum x y xn yn =>
          if Nat.ltb i xn then
            '(H1, x') <- arec_set f H0 roots x i a ;; Ok (put H1 o (KSum x' y xn yn), o)
          else
            '(H1, y') <- arec_set f H0 roots y (i - xn) a ;; Ok (put H1 o (KSum x y' xn yn), o)
        | KErase to tn p n =>
          '(H1, to') <- arec_set f H0 roots to (if Nat.leb p i then i + n else i) a ;;
          Ok (put H1 o (KErase to' tn p n), o)
        | KIns to x tn p n =>
          let '(c, j) := if andb (Nat.leb p i) (Nat.ltb i (p + n)) then (x, i - p)
                         else if Nat.leb (p + n) i then (to, i - n) else (to, i) in
          '(H1, c') <- arec_set f H0 roots c j a ;;
          if Nat.eqb c' c then Ok (put H1 o (KIns to x tn p n), o) else Ub
        | _ => Ub
        end
      else match k with
           | KFwd _ => Ub
           | _ => set_base f H o i a
           end
    end
  end.

(** [base_string_data_t::do_insert]
    (H/string/string_data_t/inserted_string_data_t.hpp:59,381-393). *)
Definition insert_base (fuel : nat) (H : heap) (roots : list nat) (o p : nat) (s : list Z) : res (heap * nat) :=
  n <- size fuel H o ;;
  if Nat.eqb p 0 then apply_v fuel H roots false o s
  else if Nat.eqb p n then apply_v fuel H roots true o s
  else let '(H1, x) := mk H (KComn s) in Ok (mk H1 (KIns o x n p (length s))).
(** [do_insert(pos,string_view_t)] (H/string/string_data_t/: null:66-67,
    head_apply:120-149, end_apply:135-163, inserted:108-127).  Moving characters
    inside a buffer is [memcpy] (H/base_defs/memory/lifetime/defs.hpp:607-615),
    undefined when source and destination overlap. *)
Fixpoint do_insert (fuel : nat) (H : heap) (roots : list nat) (o p : nat) (s : list Z) {struct fuel} : res (heap * nat) :=
  match fuel with
  | O => Out
  | S f =>
    let m := length s in
    k <- kd H o ;;
    n <- size f H o ;;
    match k with
    | KNull => Ok (mk H (KComn s))
    | KHead _ _ _ _ | KEnd _ _ _ _ | KIns _ _ _ _ _ =>
      if andb (uq H roots o)
              (match k with KIns _ _ _ _ _ => true | _ => negb (orb (Nat.eqb p 0) (Nat.eqb p n)) end) then
        '(H0, k0) <- settle f H o ;;
        match k0 with
        | KHead to tn d cap =>
          if Nat.ltb p (length d) then
            let d' := firstn p d ++ s ++ skipn p d in
            if Nat.leb m (cap - length d) then
              if andb (Nat.ltb m p) (Nat.ltb 0 m) then Ub
              else H2 <- merge f (put H0 o (KHead to tn d' cap)) roots o ;; Ok (H2, o)
            else H2 <- merge f (put H0 o (KHead to tn d' (gold (length d + tn + m)))) roots o ;; Ok (H2, o)
          else
            '(H1, to') <- do_insert f H0 roots to (p - length d) s ;;
            n1 <- size f H1 to' ;;
            H2 <- merge f (put H1 o (KHead to' n1 d cap)) roots o ;; Ok (H2, o)
        | KEnd to tn d cap =>
          if Nat.ltb p tn then
            q <- sub_chk p (length d) ;;
            '(H1, to') <- do_insert f H0 roots to q s ;;
            n1 <- size f H1 to' ;;
            H2 <- merge f (put H1 o (KEnd to' n1 d cap)) roots o ;; Ok (H2, o)
          else
            let q := p - tn in
            let d' := firstn q d ++ s ++ skipn q d in
            if Nat.leb m (cap - length d) then
              if andb (Nat.ltb m (length d - q)) (Nat.ltb 0 m) then Ub
              else H2 <- merge f (put H0 o (KEnd to tn d' cap)) roots o ;; Ok (H2, o)
            else H2 <- merge f (put H0 o (KEnd to tn d' (gold (length d + tn + m)))) roots o ;; Ok (H2, o)
        | KIns to x tn q n2 =>
          if andb (Nat.leb q p) (Nat.leb p (q + n2)) then
            '(H1, x') <- do_insert f H0 roots x (p - q) s ;; Ok (put H1 o (KIns to x' tn q (n2 + m)), o)
          else if Nat.ltb p q then
            '(H1, to') <- do_insert f H0 roots to p s ;; Ok (put H1 o (KIns to' x (tn + m) (q + m) n2), o)
          else
            '(H1, to') <- do_insert f H0 roots to (p - n2) s ;; Ok (put H1 o (KIns to' x (tn + m) q n2), o)
        | _ => Ub
        end
      else insert_base f H roots o p s
    | KFwd _ => Ub
    | _ => insert_base f H roots o p s
    end
  end.

(** [base_string_data_t::do_erase] and the constructor it calls
    (H/string/string_data_t/erased_string_data_t.hpp:58-65,272-278). *)
Definition erase_base (fuel : nat) (H : heap) (o p n : nat) : res (heap * nat) :=
  m <- size fuel H o ;;
  Ok (if Nat.eqb n m then (H, 0)
      else if Nat.eqb m 0 then mk H (KFwd 0)
      else mk H (KErase o m p n)).
(** [do_erase(pos,size)] (H/string/string_data_t/: null:68, erased:99-109,
    inserted:128-151). *)
Fixpoint do_erase (fuel : nat) (H : heap) (roots : list nat) (o p n : nat) {struct fuel} : res (heap * nat) :=
  match fuel with
  | O => Out
  | S f =>
    k <- kd H o ;;
    match k with
    | KNull => Ok (H, o)
    | KErase to tn q m =>
      if andb (uq H roots o) (andb (Nat.leb p q) (Nat.leb (q + m) (p + n)))
      then Ok (put H o (KErase to tn p (m + n)), o)
      else erase_base f H o p n
    | KIns _ _ _ _ _ =>
      if uq H roots o then
        '(H0, k0) <- settle f H o ;;
        match k0 with
        | KIns to x tn q m =>
          if andb (Nat.leb q p) (Nat.leb (p + n) (q + m)) then
            '(H1, x') <- do_erase f H0 roots x (p - q) n ;;
            r <- sub_chk m n ;; Ok (put H1 o (KIns to x' tn q r), o)
          else if Nat.ltb (p + n) q then
            '(H1, to') <- do_erase f H0 roots to p n ;;
            r <- sub_chk tn n ;; Ok (put H1 o (KIns to' x r (q - n) m), o)
          else if Nat.ltb (q + m) p then
            '(H1, to') <- do_erase f H0 roots to (p - m) n ;;
            r <- sub_chk tn n ;; Ok (put H1 o (KIns to' x r q m), o)
          else erase_base f H0 o p n
        | _ => Ub
        end
      else erase_base f H o p n
    | KFwd _ => Ub
    | _ => erase_base f H o p n
    end
  end.

(** [base_string_data_t::do_remove_back], [do_remove_front]
    (H/string/string_data_t/base_string_data_t.hpp:88-99). *)
Definition remove_base (fuel : nat) (H : heap) (e : bool) (o n : nat) : res (heap * nat) :=
  if Nat.eqb n 0 then Ok (H, o)
  else
    m <- size fuel H o ;;
    r <- sub_chk m n ;;
    if e then get_sub fuel H o 0 r else get_sub fuel H o n r.
(** [do_remove_front(size)] ([e = false]), [do_remove_back(size)] ([e = true])
    (H/string/string_data_t/: null:74-75, substr:153-181, head_apply:234-260,
    end_apply:240-264, sum:162-189, erased:172-196, inserted:242-280,
    same_value_compress:110-127). *)
Fixpoint do_remove (fuel : nat) (H : heap) (roots : list nat) (e : bool) (o n : nat) {struct fuel} : res (heap * nat) :=
  match fuel with
  | O => Out
  | S f =>
    let u := uq H roots o in
    k1 <- kd H o ;;
    '(H0, k) <- match k1 with KSub _ _ _ => if u then settle f H o else Ok (H, k1) | _ => settle f H o end ;;
    let base := remove_base f H0 e o n in
    match k with
    | KNull => Ok (H0, o)
    | KConst _ | KComn _ => base
    | KSub to b m =>
      if u then
        t <- size f H0 to ;;
        r <- sub_chk m n ;;
        if (if e then Nat.eqb (b + m) t else Nat.eqb b 0) then
          '(H1, to') <- do_remove f H0 roots e to n ;;
          Ok (put H1 o (if Nat.eqb r 0 then KFwd 0 else KSub to' b r), o)
        else
          Ok (put H0 o (if Nat.eqb r 0 then KFwd 0 else KSub to (if e then b else b + n) r), o)
      else base
    | KHead to tn d cap =>
      if e then
        if andb u (Nat.ltb n tn) then
          '(H1, to') <- do_remove f H0 roots e to n ;;
          H2 <- merge f (put H1 o (KHead to' (tn - n) d cap)) roots o ;; Ok (H2, o)
        else base
      else if Nat.leb (length d) n then do_remove f H0 roots e to (n - length d)
      else if u then
        H2 <- merge f (put H0 o (KHead to tn (skipn n d) cap)) roots o ;; Ok (H2, o)
      else base
    | KEnd to tn d cap =>
      if e then
        if Nat.leb (length d) n then do_remove f H0 roots e to (n - length d)
        else if u then
          H2 <- merge f (put H0 o (KEnd to tn (firstn (length d - n) d) cap)) roots o ;; Ok (H2, o)
        else base
      else if andb u (Nat.ltb n tn) then
        '(H1, to') <- do_remove f H0 roots e to n ;;
        H2 <- merge f (put H1 o (KEnd to' (tn - n) d cap)) roots o ;; Ok (H2, o)
      else base
    | KSum x y xn yn =>
      if e then
        if Nat.eqb yn n then Ok (H0, x)
        else if Nat.ltb yn n then do_remove f H0 roots e x (n - yn)
        else if u then
          '(H1, y') <- do_remove f H0 roots e y n ;; Ok (put H1 o (KSum x y' xn (yn - n)), o)
        else base
      else
        if Nat.eqb xn n then Ok (H0, y)
        else if Nat.ltb xn n then do_remove f H0 roots e y (n - xn)
        else if u then
          '(H1, x') <- do_remove f H0 roots e x n ;; Ok (put H1 o (KSum x' y (xn - n) yn), o)
        else base
    | KErase to tn p m =>
      if e then
        t <- sub_chk tn (p + m) ;;
        if Nat.leb t n then do_remove f H0 roots e to (n + m)
        else if u then
          '(H1, to') <- do_remove f H0 roots e to n ;; Ok (put H1 o (KErase to' (tn - n) p m), o)
        else base
      else
        if Nat.leb p n then do_remove f H0 roots e to (n + m)
        else if u then
          '(H1, to') <- do_remove f H0 roots e to n ;; Ok (put H1 o (KErase to' (tn - n) (p - n) m), o)
        else base
    | KIns to x tn p m =>
      if e then
        t <- sub_chk tn p ;;
        if Nat.leb t n then q <- sub_chk n p ;; do_remove f H0 roots e to q
        else if u then
          if Nat.leb (p + m) (tn - n) then
            '(H1, to') <- do_remove f H0 roots e to n ;; Ok (put H1 o (KIns to' x (tn - n) p m), o)
          else if andb (Nat.eqb p tn) (Nat.leb n m) then
            '(H1, x') <- do_remove f H0 roots false x n ;; Ok (put H1 o (KIns to x' tn p (m - n)), o)
          else base
        else base
      else
        if Nat.leb (p + m) n then do_remove f H0 roots e to (n - m)
        else if u then
          if Nat.ltb n p then
            '(H1, to') <- do_remove f H0 roots e to n ;; Ok (put H1 o (KIns to' x (tn - n) (p - n) m), o)
          else if andb (Nat.eqb p 0) (Nat.leb n m) then
            '(H1, x') <- do_remove f H0 roots e x n ;; Ok (put H1 o (KIns to x' tn p (m - n)), o)
          else base
        else base
    | KSame m c =>
      r <- sub_chk m n ;;
      if u then Ok (put H0 o (KSame r c), o)
      else Ok (if Nat.eqb r m then (H0, o) else if Nat.eqb r 0 then (H0, 0) else mk H0 (KSame r c))
    | KFwd _ => Ub
    end
  end.

(** [base_string_data_t::do_pop_back], [do_pop_front]: the heap, the handle
    [self] afterwards, and the result
    (H/string/string_data_t/base_string_data_t.hpp:100-115). *)
Definition pop_base (fuel : nat) (H : heap) (e : bool) (o n : nat) : res (heap * nat * nat) :=
  if Nat.eqb n 0 then Ok (H, o, 0)
  else
    m <- size fuel H o ;;
    r <- sub_chk m n ;;
    if e then
      '(H1, b) <- get_sub fuel H o 0 r ;;
      '(H2, a) <- get_sub fuel H1 o r n ;; Ok (H2, b, a)
    else
      '(H1, b) <- get_sub fuel H o 0 n ;;
      '(H2, a) <- get_sub fuel H1 o n r ;; Ok (H2, a, b).
(** The condition of the loop of [marge_same_value_type] (see [merge]). *)
Definition will_merge (H : heap) (roots : list nat) (to : nat) (e : bool) : res bool :=
  k <- kd H to ;;
  Ok (match k with
      | KHead _ _ _ _ => andb (negb e) (uq H roots to)
      | KEnd _ _ _ _ => andb e (uq H roots to)
      | _ => false
      end).
(** [do_pop_front(size,self)] ([e = false]), [do_pop_back(size,self)]
    ([e = true]) (H/string/string_data_t/: null:76-77, substr:131-152,
    head_apply:261-279, end_apply:265-283, sum:190-221, erased:197-219,
    inserted:281-315, same_value_compress:128-151).  The popped characters of a
    head or end node are read from its buffer after [self_changed]: undefined
    here when that has replaced the buffer by another one.  The result of popping
    from a child is a handle while [self_changed] runs. *)
Fixpoint do_pop (fuel : nat) (H : heap) (roots : list nat) (e : bool) (o n : nat) {struct fuel} : res (heap * nat * nat) :=
  match fuel with
  | O => Out
  | S f =>
    k <- kd H o ;;
    match k with
    | KNull => Ok (H, o, o)
    | KFwd _ => Ub
    | KSame m c =>
      r <- sub_chk m n ;;
      if uq H roots o then
        let H1 := put H o (KSame r c) in
        if Nat.eqb n r then Ok (H1, o, o)
        else if Nat.eqb n 0 then Ok (H1, o, 0)
        else let '(H2, a) := mk H1 (KSame n c) in Ok (H2, o, a)
      else
        let '(H1, a) := if Nat.eqb n m then (H, o) else if Nat.eqb n 0 then (H, 0) else mk H (KSame n c) in
        let '(H2, b) := if Nat.eqb r m then (H1, o) else if Nat.eqb r 0 then (H1, 0) else mk H1 (KSame r c) in
        Ok (H2, b, a)
    | _ =>
      if uq H roots o then
        '(H0, k0) <- settle f H o ;;
        let base := pop_base f H0 e o n in
        match k0 with
        | KSub to b m =>
          t <- size f H0 to ;;
          if (if e then Nat.eqb (b + m) t else Nat.eqb b 0) then
            '(H1, to', a) <- do_pop f H0 roots e to n ;;
            r <- sub_chk m n ;;
            Ok (put H1 o (if Nat.eqb r 0 then KFwd 0 else KSub to' b r), o, a)
          else base
        | KHead to tn d cap =>
          if e then
            '(H1, to', a) <- do_pop f H0 roots e to n ;;
            t <- sub_chk tn n ;;
            H2 <- merge f (put H1 o (KHead to' t d cap)) (a :: roots) o ;; Ok (H2, o, a)
          else if Nat.leb n (length d) then
            let H1 := put H0 o (KHead to tn (skipn n d) cap) in
            w <- will_merge H1 roots to false ;;
            H2 <- merge f H1 roots o ;;
            if andb w (Nat.ltb 0 n) then Ub
            else let '(H3, a) := mk H2 (KComn (firstn n d)) in Ok (H3, o, a)
          else base
        | KEnd to tn d cap =>
          if e then
            if Nat.leb n (length d) then
              let H1 := put H0 o (KEnd to tn (firstn (length d - n) d) cap) in
              w <- will_merge H1 roots to true ;;
              H2 <- merge f H1 roots o ;;
              if andb w (Nat.ltb 0 n) then Ub
              else let '(H3, a) := mk H2 (KComn (skipn (length d - n) d)) in Ok (H3, o, a)
            else base
          else if Nat.ltb n tn then
            '(H1, to', a) <- do_pop f H0 roots e to n ;;
            H2 <- merge f (put H1 o (KEnd to' (tn - n) d cap)) (a :: roots) o ;; Ok (H2, o, a)
          else base
        | KSum x y xn yn =>
          if e then
            if Nat.leb n yn then
              '(H1, y', a) <- (if Nat.eqb xn n then Ok (H0, 0, y) else do_pop f H0 roots e y n) ;;
              Ok (put H1 o (if Nat.eqb (yn - n) 0 then KFwd x else KSum x y' xn (yn - n)), o, a)
            else base
          else if Nat.leb n xn then
            '(H1, x', a) <- (if Nat.eqb xn n then Ok (H0, 0, x) else do_pop f H0 roots e x n) ;;
            Ok (put H1 o (if Nat.eqb (xn - n) 0 then KFwd y else KSum x' y (xn - n) yn), o, a)
          else base
        | KErase to tn p m =>
          if e then
            t <- sub_chk tn n ;;
            if Nat.leb (p + m) t then
              '(H1, to', a) <- do_pop f H0 roots e to n ;;
              Ok (put H1 o (if orb (Nat.eqb t m) (Nat.eqb t 0) then KFwd 0 else KErase to' t p m), o, a)
            else base
          else if Nat.ltb n p then
            '(H1, to', a) <- do_pop f H0 roots e to n ;;
            t <- sub_chk tn n ;;
            Ok (put H1 o (if orb (Nat.eqb t m) (Nat.eqb t 0) then KFwd 0 else KErase to' t (p - n) m), o, a)
          else base
        | KIns to x tn p m =>
          if e then
            t <- sub_chk tn n ;;
            if Nat.leb (p + m) t then
              '(H1, to', a) <- do_pop f H0 roots e to n ;; Ok (put H1 o (KIns to' x t p m), o, a)
            else if andb (Nat.eqb p tn) (Nat.leb n m) then
              '(H1, x', a) <- do_pop f H0 roots false x n ;; Ok (put H1 o (KIns to x' tn p (m - n)), o, a)
            else base
          else if Nat.ltb n p then
            '(H1, to', a) <- do_pop f H0 roots e to n ;;
            t <- sub_chk tn n ;; Ok (put H1 o (KIns to' x t (p - n) m), o, a)
          else if andb (Nat.eqb p 0) (Nat.leb n m) then
            '(H1, x', a) <- do_pop f H0 roots e x n ;; Ok (put H1 o (KIns to x' tn p (m - n)), o, a)
          else base
        | _ => base
        end
      else pop_base f H e o n
    end
  end.
End Changing.

(** ** The exact handle counter *)

(** Is [q] reached from [r] along handles?  [fuel] bounds the path length. *)
Fixpoint reachb (fuel : nat) (H : heap) (r q : nat) : bool :=
  orb (Nat.eqb r q)
      match fuel with
      | O => false
      | S f => match nth_error H r with
               | Some (k, _) => existsb (fun c => reachb f H c q) (children k)
               | None => false
               end
      end.
(** Handles to [o]: those of variables and temporaries, and those held by nodes
    that have handles themselves (nodes without handles are destroyed and
    release theirs: H/base/memory/other/ref_able.hpp, C37). *)
Definition refs (H : heap) (roots : list nat) (o : nat) : nat :=
  count_occ Nat.eq_dec roots o +
  list_sum (map (fun q =>
    if existsb (fun r => reachb (length H) H r q) roots
    then match nth_error H q with Some (k, _) => count_occ Nat.eq_dec (children k) o | None => 0 end
    else 0) (seq 0 (length H))).
(** [is_unique()] (H/string/string_data_t/base_string_data_t.hpp:68). *)
Definition uniq (H : heap) (roots : list nat) (o : nat) : bool := Nat.eqb (refs H roots o) 1.
