(** Model of comparing string nodes (H/string/string_data_t/), with the merging
    of nodes found equal. *)
From Verif Require Import Base Ref_Model List_Model Str_Model.
Local Open Scope res_scope.
Local Open Scope nat_scope.

(** [equal(a,b,size)] and [compare(a,b,size)] for arrays
    (H/base_defs/compare.hpp:69-76,206-213), [size] being the length of the first
    list; reading past the end of the second is undefined.  For [equal] only
    whether the result is [Eq] matters. *)
Fixpoint cmp_ptr (a b : list Z) : res comparison :=
  match a, b with
  | [], _ => Ok Eq
  | _, [] => Ub
  | x :: a', y :: b' => match Z.compare x y with Eq => cmp_ptr a' b' | c => Ok c end
  end.

Section Cmp.
(** Whether [a->get_memory_cost() >= b->get_memory_cost()]
    (H/string/string_data_t/base_string_data_t.hpp:433-435,459-464), which depends
    on the sizes of classes and the handle counters: left open. *)
Variable dear : heap -> nat -> nat -> bool.
(** [true]: the equality methods, whose result is only whether it is [Eq];
    [false]: the ordering methods. *)
Variable q : bool.

(** The loop of [equal_with(with,pos,size)] and [compare_with(with,pos,size)]
    (H/string/string_data_t/base_string_data_t.hpp:193-215,313-335): [a] and [b]
    are the current blocks, [n] the remaining size.  That equal addresses are not
    compared is left out; it does not change the result. *)
Fixpoint cmp_loop (fuel : nat) (H : heap) (x y i : nat) (a b : list Z) (n : nat) : res comparison :=
  match fuel with
  | O => Out
  | S f =>
    if Nat.eqb n 0 then Ok Eq
    else
      let m := Nat.min (Nat.min (length a) (length b)) n in
      r <- cmp_ptr (firstn m a) (firstn m b) ;;
      match r with
      | Eq =>
        a' <- (if Nat.eqb (length a) m then block f H x (i + m) else Ok (skipn m a)) ;;
        b' <- (if Nat.eqb (length b) m then block f H y (i + m) else Ok (skipn m b)) ;;
        let za := Nat.eqb (length a') 0 in
        let zb := Nat.eqb (length b') 0 in
        if (if q then andb za zb else orb za zb) then Ok (Nat.compare (length a') (length b'))
        else cmp_loop f H x y (i + m) a' b' (n - m)
      | c => Ok c
      end
  end.
(** [equal_with(with,pos,size)], [compare_with(with,pos,size)] (same lines). *)
Definition cmp_part (f : nat) (H : heap) (x y p n : nat) : res comparison :=
  x1 <- deref f H x ;;
  y1 <- deref f H y ;;
  if Nat.eqb x1 y1 then Ok Eq
  else
    a <- block f H x1 p ;;
    b <- block f H y1 p ;;
    cmp_loop f H x1 y1 p a b n.
(** [equal_with(string_view_t)], [compare_with(string_view_t)]
    (H/string/string_data_t/base_string_data_t.hpp:216-238,336-361). *)
Fixpoint view_loop (fuel : nat) (H : heap) (x i : nat) (a d : list Z) : res comparison :=
  match fuel with
  | O => Out
  | S f =>
    let m := Nat.min (length a) (length d) in
    r <- cmp_ptr (firstn m a) (firstn m d) ;;
    match r with
    | Eq =>
      a' <- (if Nat.eqb (length a) m then block f H x (i + m) else Ok (skipn m a)) ;;
      let d' := skipn m d in
      if orb (Nat.eqb (length a') 0) (Nat.eqb (length d') 0) then Ok (Nat.compare (length a') (length d'))
      else view_loop f H x (i + m) a' d'
    | c => Ok c
    end
  end.
Definition cmp_view (f : nat) (H : heap) (o : nat) (d : list Z) : res comparison :=
  x <- deref f H o ;;
  n <- size f H x ;;
  match Nat.compare n (length d) with
  | Eq => a <- block f H x 0 ;; view_loop f H x 0 a d
  | c => Ok c
  end.

(** [equivalent_optimization(a,b)] for two handles, and its
    [be_replace(ptr_t&,ptr_t)]
    (H/string/string_data_t/base_string_data_t.hpp:456-464;
    H/base/memory/ptr/ptr/base_ptr_t.hpp:120-125).  The cost of the null node is
    0 (H/string/string_data_t/null_string_data_t.hpp:86), that of any other node
    is not, so the null node is not replaced. *)
Definition opt_dir (H : heap) (x y : nat) : bool :=
  if Nat.eqb x 0 then false else if Nat.eqb y 0 then true else dear H x y.
Definition opt_ptr (f : nat) (H : heap) (x y : nat) : res heap :=
  x1 <- deref f H x ;;
  y1 <- deref f H y ;;
  if Nat.eqb x1 y1 then Ok H
  else Ok (if opt_dir H x1 y1 then put_keep H x1 (KFwd y1) else put_keep H y1 (KFwd x1)).
(** The virtual [be_replace_as(a)] (H/string/string_data_t/: null:54,
    constexpr:102, comn:101-104, substr:66-69, head_apply:109-118,
    end_apply:124-133, sum:73-85, erased:75-83, inserted:71-84,
    same_value_compress:66-68): the handles of nodes of the same type and layout
    are merged too. *)
Definition be_replace_as (f : nat) (H : heap) (x y : nat) : res heap :=
  kx <- kd H x ;;
  ky <- kd H y ;;
  H1 <-
    match kx, ky with
    | KHead t _ d _, KHead u _ e _ | KEnd t _ d _, KEnd u _ e _ =>
      if Nat.eqb (length d) (length e) then opt_ptr f H t u else Ok H
    | KSum a b an _, KSum a' b' an' _ =>
      if Nat.eqb an an' then H1 <- opt_ptr f H a a' ;; opt_ptr f H1 b b' else Ok H
    | KErase t _ p n, KErase u _ p' n' =>
      if andb (Nat.eqb p p') (Nat.eqb n n') then opt_ptr f H t u else Ok H
    | KIns t a _ p n, KIns u b _ p' n' =>
      if andb (Nat.eqb p p') (Nat.eqb n n') then H1 <- opt_ptr f H t u ;; opt_ptr f H1 a b else Ok H
    | _, _ => Ok H
    end ;;
  Ok (put_keep H1 x (KFwd y)).
(** [equivalent_optimization(this,with)]
    (H/string/string_data_t/base_string_data_t.hpp:452-464). *)
Definition opt_this (f : nat) (H : heap) (x y : nat) : res heap :=
  y1 <- deref f H y ;;
  if Nat.eqb x y1 then Ub
  else if opt_dir H x y1 then be_replace_as f H x y1 else Ok (put_keep H y1 (KFwd x)).

(** [has_hash_cache()&&...&&get_hash_cache()!=...]
    (H/string/string_data_t/base_string_data_t.hpp:163-165,177-179). *)
Definition hash_diff (H : heap) (x y : nat) : bool :=
  match nth_error H x, nth_error H y with
  | Some (_, Some a), Some (_, Some b) => negb (Z.eqb a b)
  | _, _ => false
  end.
(** Lexicographic chaining [if(auto tmp=a; tmp!=0) return tmp; return b;]. *)
Definition andthen (r : res (heap * comparison)) (k : heap -> res (heap * comparison)) : res (heap * comparison) :=
  '(H1, c) <- r ;; match c with Eq => k H1 | _ => Ok (H1, c) end.

(** [equal_with_same_size], [compare_with_same_size] with [base_equal_with],
    [base_compare_with], the [same_struct] methods and the default
    (H/string/string_data_t/: base:140-156,173-192,266-282,298-312, null:82-85,
    constexpr:105-120, comn:126-137, substr:192-208, head_apply:314-341,
    end_apply:309-330, sum:253-272, erased:244-267, inserted:349-376,
    same_value_compress:160-186).  In the ordering of inserted nodes a size wraps
    below zero to one larger than any string, here [S tn]. *)
Fixpoint cmp_same (fuel : nat) (H : heap) (x y : nat) {struct fuel} : res (heap * comparison) :=
  match fuel with
  | O => Out
  | S f =>
    x1 <- deref f H x ;;
    y1 <- deref f H y ;;
    if Nat.eqb x1 y1 then Ok (H, Eq)
    else if andb q (hash_diff H x1 y1) then Ok (H, Lt)
    else
      kx <- kd H x1 ;;
      ky <- kd H y1 ;;
      let arr d e := c <- cmp_ptr d e ;; Ok (H, c) in
      let part t u p n := fun H' => c <- cmp_part f H' t u p n ;; Ok (H', c) in
      let dflt := n <- ksize kx ;; part x1 y1 0 n H in
      '(H1, c) <-
        match kx, ky with
        | KConst d, KConst e => arr d e
        | KComn d, KComn e => arr d e
        | KSub t b n, KSub u b' _ => if Nat.eqb b b' then part t u b n H else dflt
        | KHead t _ d _, KHead u _ e _ =>
          if Nat.eqb (length d) (length e) then andthen (arr d e) (fun H1 => cmp_same f H1 t u) else dflt
        | KEnd t _ d _, KEnd u _ e _ =>
          if Nat.eqb (length d) (length e) then
            andthen (cmp_same f H t u) (fun H1 => c <- cmp_ptr d e ;; Ok (H1, c))
          else dflt
        | KSum a b an _, KSum a' b' an' _ =>
          if Nat.eqb an an' then andthen (cmp_same f H a a') (fun H1 => cmp_same f H1 b b') else dflt
        | KErase t tn p n, KErase u _ p' n' =>
          if andb (Nat.eqb p p') (Nat.eqb n n') then andthen (part t u 0 p H) (part t u (p + n) tn) else dflt
        | KIns t a tn p n, KIns u b _ p' n' =>
          if andb (Nat.eqb p p') (Nat.eqb n n') then
            if q then andthen (cmp_same f H a b) (fun H1 => cmp_same f H1 t u)
            else andthen (part t u 0 p H) (fun H1 => andthen (cmp_same f H1 a b)
                   (part t u p (if Nat.leb (p + n) tn then tn - (p + n) else S tn)))
          else dflt
        | KSame _ c, KSame _ d => Ok (H, Z.compare c d)
        | _, _ => dflt
        end ;;
      match c with
      | Eq => H2 <- opt_this f H1 x1 y1 ;; Ok (H2, Eq)
      | _ => Ok (H1, c)
      end
  end.
(** [equal_with(ptr_t)], [compare_with(ptr_t)]
    (H/string/string_data_t/base_string_data_t.hpp:158-172,284-297). *)
Definition cmp_top (f : nat) (H : heap) (x y : nat) : res (heap * comparison) :=
  x1 <- deref f H x ;;
  y1 <- deref f H y ;;
  if Nat.eqb x1 y1 then Ok (H, Eq)
  else if andb q (hash_diff H x1 y1) then Ok (H, Lt)
  else
    n <- size f H x1 ;;
    m <- size f H y1 ;;
    match Nat.compare n m with
    | Eq => cmp_same f H x1 y1
    | c => Ok (H, c)
    end.
End Cmp.
