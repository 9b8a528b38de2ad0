(** Model of [string_t] (H/string/defs.hpp) over the nodes of Str_Model.v: string
    variables, their small-content representation and the operations a user
    calls. *)
From Verif Require Import Base Bits_Model Ref_Model List_Model Str_Model Str_Cmp_Model.
Local Open Scope res_scope.
Local Open Scope nat_scope.

(** A string variable ([_cso_info] and [_cso_flags], H/string/defs.hpp:54-71): a
    compile-time string, one character, or a handle to a node. *)
Inductive var :=
| VStr (d : list Z)
| VChr (c : Z)
| VPtr (o : nat).
(** All string variables of the program; a destroyed one is [None]. *)
Record st := St { hp : heap; vs : list (option var) }.
(** At the start: the null node only
    (H/string/string_data_t/null_string_data_t.hpp:88-91). *)
Definition st0 : st := St [(KNull, None)] [].

(** The handles held by variables (language semantics). *)
Definition hof (v : option var) : list nat := match v with Some (VPtr o) => [o] | _ => [] end.
Definition roots (l : list (option var)) : list nat := flat_map hof l.
(** The handles held by variables other than the [i]-th. *)
Definition others (i : nat) (l : list (option var)) : list nat := roots (upd l i None).
(** Access to a live variable (language semantics). *)
Definition getv (s : st) (i : nat) : res var :=
  match nth_error (vs s) i with Some (Some v) => Ok v | _ => Ub end.
(** Assignment to a variable, and a new variable (language semantics). *)
Definition setv (s : st) (i : nat) (v : option var) : st := St (hp s) (upd (vs s) i v).
Definition addv (s : st) (v : var) : st := St (hp s) (vs s ++ [Some v]).
(** [_in_cso] (H/string/defs.hpp:87). *)
Definition is_cso (v : var) : bool := match v with VPtr _ => false | _ => true end.
(** [_get_cso_data], [_get_cso_size] (H/string/defs.hpp:99-100). *)
Definition cso_data (v : var) : list Z := match v with VStr d => d | VChr c => [c] | VPtr _ => [] end.

(** The operations: constructors (H/string/defs.hpp:161-181), assignments
    (187-190), [operator+] (194-215), [push_back]/[push_front] (555-631),
    [operator[]=] (325,363), [substr] (462-470), [resize] (479-491), [clear]
    (505), [remove_*] (633-634), [pop_*] (636-637), [erase] (850-852), [insert]
    (853-866), destructor (184), and the observers [size] (475), [operator[]]
    (319-324), [string_view_t] conversion ([data], 471,644), [c_str] (473) and
    [hash_t] conversion (648), and comparison (251-302).  [e = true] is the end,
    [e = false] the beginning; a final [V] marks the overloads for
    [string_view_t], a final [L] those for a compile-time string; [q = true] is
    [operator==], [q = false] is [operator<=>]. *)
Inductive op :=
| ONew (d : list Z)
| OLit (d : list Z)
| OChar (c : Z)
| ORep (n : nat) (c : Z)
| OCopy (j : nat)
| OMove (j : nat)
| OSet (i j : nat)
| OSwap (i j : nat)
| OSetLit (i : nat) (d : list Z)
| OSetChar (i : nat) (c : Z)
| OClear (i : nat)
| ODrop (i : nat)
| OPush (e : bool) (i j : nat)
| OPushV (e : bool) (i : nat) (d : list Z)
| OPushRep (e : bool) (i : nat) (c : Z) (n : nat)
| OPlus (i j : nat)
| OPlusV (e : bool) (i : nat) (d : list Z)
| OAssign (i p : nat) (c : Z)
| OSub (i b n : nat)
| OResize (i n : nat) (c : Z)
| OErase (i p n : nat)
| OInsert (i p j : nat)
| OInsertV (i p : nat) (d : list Z)
| ORemove (e : bool) (i n : nat)
| OPop (e : bool) (i n : nat)
| OSize (i : nat)
| OAt (i p : nat)
| OData (i : nat)
| OCStr (i : nat)
| OHash (i : nat)
| OCmp (q : bool) (i j : nat)
| OCmpV (q : bool) (i : nat) (d : list Z)
| OCmpL (q : bool) (i : nat) (d : list Z).
(** What an operation returns to its caller. *)
Inductive out := RNone | RNat (n : nat) | RChr (c : Z) | RSeq (d : list Z) | RHash (h : Z) | RBool (b : bool) | ROrd (c : comparison).

(** The three ways to obtain the characters as an array: [get_c_str],
    [get_const_c_str], [get_data]
    (H/string/string_data_t/base_string_data_t.hpp:73-75). *)
Inductive mode := MC | MConst | MData.

(** What the model leaves open, per call: [is_unique] and
    [get_next_gold_size_to_resize_for_array] (see Str_Model.v);
    [the_size_worth_to_end_cso] (H/string/defs.hpp:126-129), which depends on the
    size of a class; [positive_gc_profit]
    (H/string/string_data_t/base_string_data_t.hpp:432-438), which compares memory
    costs; whether the character after a compile-time string is zero
    (H/string/string_data_t/constexpr_string_data_t.hpp:91); and the comparison of
    memory costs when two nodes are found equal (see Str_Cmp_Model.v). *)
Record orc := Orc {
  uq : heap -> list nat -> nat -> bool;
  gold : nat -> nat;
  worth : nat -> bool;
  profit : heap -> nat -> bool;
  ztail : heap -> nat -> bool;
  dear : heap -> nat -> nat -> bool }.

Section Hash.
(** The width of [hash_t], and [hash(char_T)] (H/base_defs/hash.hpp:118-130). *)
Variable hd : Z.
Variable hc : Z -> Z.
(** [hash(const char_T*,size_t)] (H/base_defs/hash.hpp:247-249). *)
Definition hv (v : list Z) : Z := hash_seq hd (map hc v).
(** [hash.with_calculated_before], [hash.merge_array_hash_results],
    [hash.repeat_times] (H/base_defs/hash.hpp:179-187,260-264,196-225). *)
Definition hwcb (b : Z) (n : nat) (v : list Z) : Z := with_calculated_before hd b (Z.of_nat n) (map hc v).
Definition hmerge (b : Z) (n : nat) (a : Z) : Z := merge_hash hd b (Z.of_nat n) a.
Definition hrep (c : Z) (n : nat) : Z := repeat_times hd (hc c) (Z.of_nat n).
(** [set_hash_cache] (H/string/string_data_t/base_string_data_t.hpp:401). *)
Definition set_cache (H : heap) (o : nat) (h : Z) : res heap :=
  k <- kd H o ;; Ok (upd H o (k, Some h)).

(** [get_hash] with [get_hash_detail], and
    [get_others_hash_with_calculated_before] with its detail
    (H/string/string_data_t/: base:403-426, null:79-80, substr:183-190,
    head_apply:281-312, end_apply:285-304, sum:223-251, erased:221-242,
    inserted:317-347, same_value_compress:153-158).  Of the node types that use
    the methods of the base class (constexpr, comn), [get_data] is the array of
    the node. *)
Fixpoint get_hash (fuel : nat) (H : heap) (o : nat) {struct fuel} : res (heap * Z) :=
  match fuel with
  | O => Out
  | S f =>
    o1 <- deref f H o ;;
    match nth_error H o1 with
    | None => Ub
    | Some (_, Some h) => Ok (H, h)
    | Some (k, None) =>
      '(H1, h) <-
        match k with
        | KNull => Ok (H, 0%Z)
        | KConst d | KComn d => Ok (H, hv d)
        | KSub to b n => others_hash f H 0%Z 0 to b n
        | KHead to tn d _ =>
          if Nat.eqb (length d) 0 then get_hash f H to
          else if Nat.eqb tn 0 then Ok (H, hv d)
          else '(H1, a) <- get_hash f H to ;; Ok (H1, hmerge (hv d) (length d) a)
        | KEnd to tn d _ => '(H1, a) <- get_hash f H to ;; Ok (H1, hwcb a tn d)
        | KSum x y xn yn =>
          if Nat.eqb xn 0 then get_hash f H y
          else
            '(H1, a) <- get_hash f H x ;;
            if Nat.eqb yn 0 then Ok (H1, a)
            else '(H2, b) <- get_hash f H1 y ;; Ok (H2, hmerge a xn b)
        | KErase to tn p n =>
          m <- sub_chk tn n ;;
          r <- sub_chk m p ;;
          '(H1, a) <- others_hash f H 0%Z 0 to 0 p ;;
          others_hash f H1 a p to (p + n) r
        | KIns to x tn p n =>
          '(H1, a) <- (if Nat.eqb p 0 then Ok (H, 0%Z) else others_hash f H 0%Z 0 to 0 p) ;;
          '(H2, b) <- get_hash f H1 x ;;
          r <- sub_chk tn p ;;
          if Nat.eqb r 0 then Ok (H2, hmerge a p b)
          else others_hash f H2 (hmerge a p b) (p + n) to p r
        | KSame n c => Ok (H, hrep c n)
        | KFwd _ => Ub
        end ;;
      H2 <- set_cache H1 o1 h ;;
      Ok (H2, h)
    end
  end
with others_hash (fuel : nat) (H : heap) (a : Z) (an : nat) (o p n : nat) {struct fuel} : res (heap * Z) :=
  match fuel with
  | O => Out
  | S f =>
    o1 <- deref f H o ;;
    k <- kd H o1 ;;
    m <- ksize k ;;
    if andb (Nat.eqb p 0) (Nat.eqb n m) then
      '(H1, b) <- get_hash f H o1 ;; Ok (H1, hmerge a an b)
    else
      match k with
      | KNull => Ok (H, a)
      | KConst d | KComn d => d' <- slice d p n ;; Ok (H, hwcb a an d')
      | KSub to b _ => others_hash f H a an to (p + b) n
      | KHead to _ d _ =>
        if Nat.ltb p (length d) then
          let m := Nat.min (length d - p) n in
          d' <- slice d p m ;;
          let a1 := hwcb a an d' in
          if Nat.eqb n m then Ok (H, a1) else others_hash f H a1 (an + m) to 0 (n - m)
        else others_hash f H a an to (p - length d) n
      | KEnd to tn d _ =>
        if Nat.leb (p + n) tn then others_hash f H a an to p n
        else if Nat.ltb p tn then
          '(H1, a1) <- others_hash f H a an to p (tn - p) ;;
          d' <- slice d 0 (n - (tn - p)) ;;
          Ok (H1, hwcb a1 (an + (tn - p)) d')
        else d' <- slice d (p - tn) n ;; Ok (H, hwcb a an d')
      | KSum x y xn _ =>
        if Nat.ltb p xn then
          let m := Nat.min (p + n) xn - p in
          '(H1, a1) <- others_hash f H a an x p m ;;
          if Nat.eqb n m then Ok (H1, a1) else others_hash f H1 a1 (an + m) y 0 (n - m)
        else others_hash f H a an y (p - xn) n
      | KErase to _ q m =>
        if Nat.ltb (p + n) q then others_hash f H a an to p n
        else if Nat.leb q p then others_hash f H a an to (p + m) n
        else
          '(H1, a1) <- others_hash f H a an to p (q - p) ;;
          others_hash f H1 a1 (an + (q - p)) to (q + m) (n - (q - p))
      | KIns to x _ q m =>
        if Nat.ltb (p + n) q then others_hash f H a an to p n
        else if Nat.ltb (q + m) p then others_hash f H a an to (p - m) n
        else
          '(H1, a1) <- (if Nat.ltb p q then others_hash f H a an to p (q - p) else Ok (H, a)) ;;
          let n1 := n - (q - p) in
          let an1 := an + (q - p) in
          let j := Nat.min n1 m in
          '(H2, a2) <- others_hash f H1 a1 an1 x 0 j ;;
          if Nat.eqb (n1 - j) 0 then Ok (H2, a2) else others_hash f H2 a2 (an1 + j) to q (n1 - j)
      | KSame _ c => Ok (H, hmerge a an (hrep c n))
      | KFwd _ => Ub
      end
  end.

Variable g : orc.
Let uq := uq g.
Let gold := gold g.
Let worth := worth g.
Let profit := profit g.
Let ztail := ztail g.
Let dear := dear g.

(** [_cso_fin(need_write)] (H/string/defs.hpp:110-118). *)
Definition fin (w : bool) (H : heap) (v : var) : heap * nat :=
  match v with
  | VStr d => if w then mk H (KComn d) else (H ++ [(KConst d, Some (hv d))], length H)
  | VChr c => mk H (KComn [c])
  | VPtr o => (H, o)
  end.
(** [_cso_check(need_write)] followed by [_m->] (H/string/defs.hpp:137-140); the
    handle is redirected past replaced nodes
    (H/base/memory/ptr/ptr/base_ptr_t.hpp:115-119). *)
Definition own (w : bool) (f : nat) (s : st) (i : nat) : res (st * nat) :=
  v <- getv s i ;;
  let '(H1, o) := fin w (hp s) v in
  o1 <- deref f H1 o ;;
  Ok (St H1 (upd (vs s) i (Some (VPtr o1))), o1).
(** [full_copy_cso_check] (H/string/defs.hpp:130-133).  Only the content of a
    small string can be short of a node here, so its size is that of [_cso_*]. *)
Definition full_copy (s : st) (i : nat) : res st :=
  v <- getv s i ;;
  if andb (is_cso v) (worth (length (cso_data v))) then
    let '(H1, o) := fin false (hp s) v in Ok (St H1 (upd (vs s) i (Some (VPtr o))))
  else Ok s.

(** [get_c_str], [get_const_c_str], [get_data]: the heap, the handle and the
    characters (H/string/string_data_t/: base:73-75, comn:105,155-162, null:55-58,
    constexpr:89-95, substr:71-77, head_apply:103-108, end_apply:118-123;
    [do_replace], H/base/memory/ptr/ptr/base_ptr_t.hpp:120-125). *)
Definition flat_base (f : nat) (H : heap) (o : nat) : res (heap * nat * list Z) :=
  n <- size f H o ;;
  d <- copy_part f H o 0 n ;;
  let '(H1, c) := mk H (KComn d) in
  Ok (if profit H o then put_keep H1 o (KFwd c) else H1, c, d).
Fixpoint flat (md : mode) (fuel : nat) (H : heap) (o : nat) {struct fuel} : res (heap * nat * list Z) :=
  match fuel with
  | O => Out
  | S f =>
    k <- kd H o ;;
    match k with
    | KNull => Ok (H, o, [])
    | KConst d =>
      match md with
      | MData => Ok (H, o, d)
      | MConst => if ztail H o then Ok (H, o, d) else flat_base f H o
      | MC => flat_base f H o
      end
    | KComn d => Ok (H, o, d)
    | KSub to b n =>
      to1 <- deref f H to ;;
      t <- size f H to1 ;;
      if match md with MData => true | MConst => Nat.eqb t (b + n) | MC => false end then
        '(H1, to', d) <- flat md f H to1 ;;
        d' <- slice d b n ;; Ok (put_keep H1 o (KSub to' b n), o, d')
      else flat_base f H o
    | KHead to tn [] cap =>
      to1 <- deref f H to ;;
      '(H1, to', d) <- flat MC f H to1 ;; Ok (put_keep H1 o (KHead to' tn [] cap), o, d)
    | KEnd to tn [] cap =>
      to1 <- deref f H to ;;
      '(H1, to', d) <- flat MC f H to1 ;; Ok (put_keep H1 o (KEnd to' tn [] cap), o, d)
    | KFwd _ => Ub
    | _ => flat_base f H o
    end
  end.
(** [data()], [c_str()] (H/string/defs.hpp:471,473). *)
Definition observe (md : mode) (f : nat) (s : st) (i : nat) : res (st * list Z) :=
  v <- getv s i ;;
  match v with
  | VPtr _ =>
    '(s1, o) <- own false f s i ;;
    '(H2, o', d) <- flat md f (hp s1) o ;;
    Ok (St H2 (upd (vs s1) i (Some (VPtr o'))), d)
  | _ => Ok (s, cso_data v)
  end.
(** [size()] (H/string/defs.hpp:475). *)
Definition sizev (f : nat) (s : st) (i : nat) : res nat :=
  v <- getv s i ;; match v with VPtr o => size f (hp s) o | _ => Ok (length (cso_data v)) end.

(** [push_back(string_view_t)], [push_front(string_view_t)]
    (H/string/defs.hpp:579,618). *)
Definition push_view (e : bool) (f : nat) (s : st) (i : nat) (d : list Z) : res st :=
  '(s1, o) <- own false f s i ;;
  '(H2, o') <- apply_v uq gold f (hp s1) (o :: others i (vs s1)) e o d ;;
  Ok (St H2 (upd (vs s1) i (Some (VPtr o')))).
(** [push_back(const string_t&)], [push_front(const string_t&)] and the versions
    for [string_t&&] (H/string/defs.hpp:555-578,594-617).  The view of a
    one-character string is a pointer into the variable itself: undefined when
    that variable is converted to a node before the view is read. *)
Definition push (e : bool) (f : nat) (s0 : st) (i j : nat) : res st :=
  s1 <- full_copy s0 i ;;
  s2 <- full_copy s1 j ;;
  v <- getv s2 i ;;
  u <- getv s2 j ;;
  match u with
  | VPtr _ =>
    if is_cso v then
      '(s3, p) <- own false f s2 j ;;
      '(H4, o') <- apply_v uq gold f (hp s3) (p :: others j (vs s3)) (negb e) p (cso_data v) ;;
      Ok (St H4 (upd (vs s3) i (Some (VPtr o'))))
    else
      '(s3, p) <- own false f s2 j ;;
      '(s4, o) <- own false f s3 i ;;
      '(H5, o') <- apply_p uq gold f (hp s4) (o :: p :: others i (vs s4)) e o p ;;
      Ok (St H5 (upd (vs s4) i (Some (VPtr o'))))
  | VChr c => if Nat.eqb i j then Ub else push_view e f s2 i [c]
  | VStr d => push_view e f s2 i d
  end.
(** [push_back(ch,count)], [push_front(ch,count)] (H/string/defs.hpp:584-589,623-628). *)
Definition push_rep (e : bool) (f : nat) (s : st) (i : nat) (c : Z) (n : nat) : res st :=
  if Nat.eqb n 0 then Ok s
  else
    '(s1, o) <- own false f s i ;;
    let '(H2, p) := mk (hp s1) (KSame n c) in
    '(H3, o') <- apply_p uq gold f H2 (o :: p :: p :: others i (vs s1)) e o p ;;
    Ok (St H3 (upd (vs s1) i (Some (VPtr o')))).
(** [operator+(const string_t&)], [operator+(string_view_t)] ([e = true]) and
    [operator+(string_view_t,const string_t&)] ([e = false])
    (H/string/defs.hpp:194-215).  [ptr_copy] (145-148) adds a handle. *)
Definition plus_view (e : bool) (f : nat) (s : st) (i : nat) (d : list Z) : res st :=
  '(s1, o) <- own false f s i ;;
  '(H2, o') <- apply_v uq gold f (hp s1) (o :: roots (vs s1)) e o d ;;
  Ok (addv (St H2 (vs s1)) (VPtr o')).
Definition plus (f : nat) (s0 : st) (i j : nat) : res st :=
  s1 <- full_copy s0 j ;;
  u <- getv s1 j ;;
  match u with
  | VPtr _ =>
    '(s2, o) <- own false f s1 i ;;
    '(s3, p) <- own false f s2 j ;;
    '(H4, o') <- apply_p uq gold f (hp s3) (o :: p :: roots (vs s3)) true o p ;;
    Ok (addv (St H4 (vs s3)) (VPtr o'))
  | VChr c => if Nat.eqb i j then Ub else plus_view true f s1 i [c]
  | VStr d => plus_view true f s1 i d
  end.
(** [substr(begin,size)] (H/string/defs.hpp:462-470). *)
Definition substr (f : nat) (s : st) (i b n : nat) : res (st * var) :=
  t <- sizev f s i ;;
  r <- sub_chk t b ;;
  let m := Nat.min n r in
  if Nat.eqb m 0 then Ok (s, VStr [])
  else
    '(s1, o) <- own false f s i ;;
    '(H2, o') <- get_sub f (hp s1) o b m ;;
    Ok (St H2 (vs s1), VPtr o').
(** [insert(pos,string_view_t)] (H/string/defs.hpp:861-863). *)
Definition insert_view (f : nat) (s : st) (i p : nat) (d : list Z) : res st :=
  '(s1, o) <- own false f s i ;;
  '(H2, o') <- do_insert uq gold f (hp s1) (o :: others i (vs s1)) o p d ;;
  Ok (St H2 (upd (vs s1) i (Some (VPtr o')))).
(** [insert(pos,const string_t&)] (H/string/defs.hpp:853-860): the method is
    called on the node found before the argument is converted to a view.  If
    that conversion has released the node, this is undefined; if it has only
    replaced the node, the model takes it as undefined too. *)
Definition insert_var (f : nat) (s : st) (i p j : nat) : res st :=
  '(s1, o) <- own false f s i ;;
  s2 <- full_copy s1 j ;;
  u <- getv s2 j ;;
  match u with
  | VPtr _ =>
    '(s3, d) <- observe MData f s2 j ;;
    if existsb (fun r => reachb (length (hp s3)) (hp s3) r o) (roots (vs s3)) then
      '(H4, o') <- do_insert uq gold f (hp s3) (if Nat.eqb i j then roots (vs s3) else o :: others i (vs s3)) o p d ;;
      Ok (St H4 (upd (vs s3) i (Some (VPtr o'))))
    else Ub
  | _ => insert_view f s2 i p (cso_data u)
  end.

(** [operator==(string_view_t)], [operator<=>(string_view_t)]
    (H/string/defs.hpp:275-286): a small string compares as many characters as it
    has itself. *)
Definition cmp_v (f : nat) (s : st) (i : nat) (d : list Z) : res comparison :=
  v <- getv s i ;;
  match v with VPtr o => cmp_view f (hp s) o d | _ => cmp_ptr (cso_data v) d end.
(** [operator==(constexpr_str_t&)], [operator<=>(constexpr_str_t&)]
    (H/string/defs.hpp:287-302): if equal, the variable becomes the compile-time
    string.  That two compile-time strings at the same address are not compared is
    left out: it gives the same result for the same string. *)
Definition cmp_l (f : nat) (s : st) (i : nat) (d : list Z) : res (st * comparison) :=
  c <- cmp_v f s i d ;;
  Ok (match c with Eq => setv s i (Some (VStr d)) | _ => s end, c).
(** [operator==(const string_t&)], [operator<=>(const string_t&)]
    (H/string/defs.hpp:251-274). *)
Definition cmp_s (q : bool) (f : nat) (s : st) (i j : nat) : res (st * comparison) :=
  v <- getv s i ;;
  u <- getv s j ;;
  match u, v with
  | VStr d, _ => cmp_l f s i d
  | VChr c, _ => r <- cmp_v f s i [c] ;; Ok (s, r)
  | VPtr p, VPtr o => '(H1, r) <- cmp_top dear q f (hp s) o p ;; Ok (St H1 (vs s), r)
  | VPtr p, VStr d => '(s1, r) <- cmp_l f s j d ;; Ok (s1, CompOpp r)
  | VPtr p, VChr c => r <- cmp_v f s j [c] ;; Ok (s, CompOpp r)
  end.
(** What the two operators return (language semantics). *)
Definition cmp_out (q : bool) (c : comparison) : out :=
  if q then RBool (match c with Eq => true | _ => false end) else ROrd c.

(** One operation; see [op] for the lines. *)
Definition step (f : nat) (s : st) (x : op) : res (st * out) :=
  let done (r : res st) := t <- r ;; Ok (t, RNone) in
  match x with
  | ONew d => let '(H1, o) := mk (hp s) (KComn d) in Ok (addv (St H1 (vs s)) (VPtr o), RNone)
  | OLit d => Ok (addv s (VStr d), RNone)
  | OChar c => Ok (addv s (VChr c), RNone)
  | ORep n c => let '(H1, o) := mk (hp s) (KSame n c) in Ok (addv (St H1 (vs s)) (VPtr o), RNone)
  | OCopy j => v <- getv s j ;; Ok (addv s v, RNone)
  | OMove j => v <- getv s j ;; Ok (addv (setv s j (Some (VStr []))) v, RNone)
  | OSet i j =>
    v <- getv s i ;; u <- getv s j ;;
    if andb (Nat.eqb i j) (negb (is_cso v)) then Ub else Ok (setv s i (Some u), RNone)
  | OSwap i j =>
    v <- getv s i ;; u <- getv s j ;; Ok (setv (setv s i (Some u)) j (Some v), RNone)
  | OSetLit i d => v <- getv s i ;; Ok (setv s i (Some (VStr d)), RNone)
  | OSetChar i c => v <- getv s i ;; Ok (setv s i (Some (VChr c)), RNone)
  | OClear i => v <- getv s i ;; Ok (setv s i (Some (VStr [])), RNone)
  | ODrop i => v <- getv s i ;; Ok (setv s i None, RNone)
  | OPush e i j => done (push e f s i j)
  | OPushV e i d => done (push_view e f s i d)
  | OPushRep e i c n => v <- getv s i ;; done (push_rep e f s i c n)
  | OPlus i j => done (plus f s i j)
  | OPlusV e i d => done (plus_view e f s i d)
  | OAssign i p c =>
    done ('(s1, o) <- own true f s i ;;
          '(H2, o') <- arec_set uq gold f (hp s1) (o :: others i (vs s1)) o p c ;;
          Ok (St H2 (upd (vs s1) i (Some (VPtr o')))))
  | OSub i b n => '(s1, v) <- substr f s i b n ;; Ok (addv s1 v, RNone)
  | OResize i n c =>
    t <- sizev f s i ;;
    if Nat.ltb n t then '(s1, v) <- substr f s i 0 n ;; Ok (setv s1 i (Some v), RNone)
    else if Nat.eqb t n then Ok (s, RNone)
    else if Nat.eqb t 0 then
      let '(H1, o) := mk (hp s) (KSame n c) in Ok (St H1 (upd (vs s) i (Some (VPtr o))), RNone)
    else
      '(s1, o) <- own false f s i ;;
      let '(H2, o') := mk (hp s1) (KEnd o t (repeat c (n - t)) (gold (t + (n - t)))) in
      Ok (St H2 (upd (vs s1) i (Some (VPtr o'))), RNone)
  | OErase i p n =>
    done ('(s1, o) <- own false f s i ;;
          '(H2, o') <- do_erase uq f (hp s1) (o :: others i (vs s1)) o p n ;;
          Ok (St H2 (upd (vs s1) i (Some (VPtr o')))))
  | OInsertV i p d => done (insert_view f s i p d)
  | OInsert i p j => done (insert_var f s i p j)
  | ORemove e i n =>
    done ('(s1, o) <- own false f s i ;;
          '(H2, o') <- do_remove uq gold f (hp s1) (o :: others i (vs s1)) e o n ;;
          Ok (St H2 (upd (vs s1) i (Some (VPtr o')))))
  | OPop e i n =>
    done ('(s1, o) <- own false f s i ;;
          '(H2, o', a) <- do_pop uq gold f (hp s1) (o :: others i (vs s1)) e o n ;;
          Ok (addv (St H2 (upd (vs s1) i (Some (VPtr o')))) (VPtr a)))
  | OSize i => t <- sizev f s i ;; Ok (s, RNat t)
  | OAt i p =>
    v <- getv s i ;;
    match v with
    | VPtr o => c <- arec f (hp s) o p ;; Ok (s, RChr c)
    | _ => c <- def_ (nth_error (cso_data v) p) ;; Ok (s, RChr c)
    end
  | OData i => '(s1, d) <- observe MData f s i ;; Ok (s1, RSeq d)
  | OCStr i => '(s1, d) <- observe MConst f s i ;; Ok (s1, RSeq d)
  | OHash i =>
    v <- getv s i ;;
    match v with
    | VPtr o => '(H1, a) <- get_hash f (hp s) o ;; Ok (St H1 (vs s), RHash a)
    | VStr d => Ok (s, RHash (hv d))
    | VChr c => Ok (s, RHash (hc c))
    end
  | OCmp q i j => '(s1, c) <- cmp_s q f s i j ;; Ok (s1, cmp_out q c)
  | OCmpV q i d => c <- cmp_v f s i d ;; Ok (s, cmp_out q c)
  | OCmpL q i d => '(s1, c) <- cmp_l f s i d ;; Ok (s1, cmp_out q c)
  end.
End Hash.
(** A whole program: operations one after the other, each with what is left open
    in it; the results of all (language semantics). *)
Fixpoint run (hd : Z) (hc : Z -> Z) (f : nat) (s : st) (xs : list (orc * op)) : res (st * list out) :=
  match xs with
  | [] => Ok (s, [])
  | (g, x) :: t =>
    '(s1, o) <- step hd hc g f s x ;;
    '(s2, os) <- run hd hc f s1 t ;;
    Ok (s2, o :: os)
  end.
