(** Property theorems C89: views of arrays and strings. *)
From Verif Require Import Base View_Model View_Proofs.
Local Open Scope Z_scope.

(** [subview] never leaves the view, whatever its arguments: it shows the elements from the first
    position up to the second one, as far as they exist. *)
Theorem C89_subview : forall A (block : list A) v l, items block v = Some l -> forall pos e, 0 <= pos -> 0 <= e ->
  items block (subview v pos e) = Some (skipn (Z.to_nat pos) (firstn (Z.to_nat e) l)) /\
  items block (subview_from v pos) = Some (skipn (Z.to_nat pos) l).
Proof. intros A block v l H pos e P E. exact (conj (subview_spec H P E) (subview_from_spec H P)). Qed.
Print Assumptions C89_subview.
Example C89_subview_case : let v := {| vbegin := 1; vsize := 4 |} in let block := [1; 2; 3; 4; 5; 6] in
  items block v = Some [2; 3; 4; 5] /\ items block (subview v 1 3) = Some [3; 4] /\
  items block (subview v 3 1) = Some [] /\ items block (subview v 2 99) = Some [4; 5] /\
  items block (subview v 9 (2 ^ 64 - 1)) = Some [] /\ items block (subview_from v 3) = Some [5].
Proof. vm_compute. repeat split. Qed.

(** Elements of a view: [operator[]], [front], [back] (outside the block for an empty view), and
    the loop from [rbegin] to [rend], which shows them in the opposite order. *)
Theorem C89_elements : forall A (block : list A) v l, items block v = Some l -> Z.of_nat (length block) < 2 ^ 64 ->
  (forall pos, 0 <= pos < vsize v -> at_ block v pos = nth_error l (Z.to_nat pos)) /\
  match l with [] => back block v = None | x :: _ => front block v = Some x /\ back block v = Some (last l x) end /\
  (forall n, (length l <= n)%nat -> reversed n block v = Some (rev l)).
Proof.
  intros A block v l H F. exact (conj (fun pos P => at_spec H P) (conj (ends_spec H F) (fun n N => reversed_spec H N))).
Qed.
Print Assumptions C89_elements.
Example C89_elements_case : let v := {| vbegin := 1; vsize := 4 |} in let block := [1; 2; 3; 4; 5; 6] in
  reversed 9 block v = Some [5; 4; 3; 2] /\ back block v = Some 5 /\ at_ block v 2 = Some 4 /\
  back block {| vbegin := 3; vsize := 0 |} = None.
Proof. vm_compute. repeat split. Qed.

(** A view of a string that ends with zero shows what stands before the first zero; without
    a zero the block is left. *)
Theorem C89_zero_ended : forall A (is_zero : A -> bool) block p, Z.of_nat (length block) < 2 ^ 64 ->
  0 <= p <= Z.of_nat (length block) ->
  match of_zero_ended is_zero block p with
  | Some v => exists l z rest, skipn (Z.to_nat p) block = l ++ z :: rest /\ is_zero z = true /\
      Forall (fun x => is_zero x = false) l /\ items block v = Some l
  | None => Forall (fun x => is_zero x = false) (skipn (Z.to_nat p) block)
  end.
Proof. intros A is_zero block p. exact (@of_zero_spec A is_zero block p). Qed.
Print Assumptions C89_zero_ended.
Example C89_zero_case : of_zero_ended (Z.eqb 0) [7; 8; 9; 0; 5; 0] 1 = Some {| vbegin := 1; vsize := 2 |} /\
  of_zero_ended (Z.eqb 0) [7; 8; 9; 0; 5; 0] 3 = Some {| vbegin := 3; vsize := 0 |} /\
  of_zero_ended (Z.eqb 0) [7; 8; 9] 1 = None.
Proof. vm_compute. repeat split. Qed.

(** A pointer that does not point into the block shows nothing. *)
Theorem C89_zero_outside_undefined : forall A (is_zero : A -> bool) block p,
  p < 0 \/ Z.of_nat (length block) < p -> of_zero_ended is_zero block p = None.
Proof. intros A is_zero block p. exact (@of_zero_outside A is_zero block p). Qed.
Print Assumptions C89_zero_outside_undefined.
Example C89_zero_outside_case : of_zero_ended (Z.eqb 0) [7; 0] (-1) = None /\ of_zero_ended (Z.eqb 0) [7; 0] 3 = None.
Proof. vm_compute. split; reflexivity. Qed.

(** [substr] of a string view with positions inside the view shows that part.  Missing for the
    property: positions outside of the view, and [substr(pos, end)] with a pointer and a position
    other than zero (both false, see below). *)
Theorem C89_substr_partial : forall A (block : list A) v l, items block v = Some l -> Z.of_nat (length block) < 2 ^ 64 ->
  (forall pos len, 0 <= pos -> 0 <= len -> pos + len <= vsize v ->
     items block (substr v pos len) = Some (firstn (Z.to_nat len) (skipn (Z.to_nat pos) l))) /\
  (forall pos, 0 <= pos <= vsize v -> items block (substr_from v pos) = Some (skipn (Z.to_nat pos) l)) /\
  (forall b e, vbegin v <= b <= e -> e <= vbegin v + vsize v ->
     items block (substr_pos_ptr v 0 e) = Some (firstn (Z.to_nat (e - vbegin v)) l) /\
     items block (substr_ptr_len v b (e - b)) = Some (firstn (Z.to_nat (e - b)) (skipn (Z.to_nat (b - vbegin v)) l)) /\
     items block (substr_ptr_ptr v b e) = Some (firstn (Z.to_nat (e - b)) (skipn (Z.to_nat (b - vbegin v)) l)) /\
     items block (substr_ptr v b) = Some (skipn (Z.to_nat (b - vbegin v)) l)).
Proof.
  intros A block v l H F. exact (conj (fun pos len P N L => substr_spec H P N L)
    (conj (fun pos P => substr_from_spec H F P) (fun b e P Q => substr_ptr_spec H F P Q))).
Qed.
Print Assumptions C89_substr_partial.
Example C89_substr_case : let v := {| vbegin := 1; vsize := 4 |} in let block := [1; 2; 3; 4; 5; 6] in
  items block (substr v 1 2) = Some [3; 4] /\ items block (substr_from v 2) = Some [4; 5] /\
  items block (substr_ptr_ptr v 2 4) = Some [3; 4] /\ items block (substr_ptr v 3) = Some [4; 5].
Proof. vm_compute. repeat split. Qed.

(** Finding: [substr(pos, end)] with a position greater than zero and a pointer shows [pos]
    elements too many, always; near the end it leaves the block. *)
Theorem C89_substr_pos_ptr_wrong : forall A (block : list A) v l, items block v = Some l -> Z.of_nat (length block) < 2 ^ 64 ->
  forall pos e, 0 < pos <= e - vbegin v -> e <= vbegin v + vsize v ->
  vsize (substr_pos_ptr v pos e) = e - vbegin v /\
  items block (substr_pos_ptr v pos e) <> Some (skipn (Z.to_nat pos) (firstn (Z.to_nat (e - vbegin v)) l)) /\
  (Z.of_nat (length block) < e + pos -> items block (substr_pos_ptr v pos e) = None).
Proof. intros A block v l H F pos e. exact (@substr_pos_ptr_spec A block v l pos e H F). Qed.
Print Assumptions C89_substr_pos_ptr_wrong.
Example C89_substr_pos_ptr_case : let v := {| vbegin := 1; vsize := 4 |} in let block := [1; 2; 3; 4; 5; 6] in
  items block (substr_pos_ptr v 1 3) = Some [3; 4] /\ items block (substr_pos_ptr v 2 5) = None.
Proof. vm_compute. repeat split. Qed.

(** Finding: [substr(pos)] behind the end of the view always leaves the block (its size wraps
    around), and [substr(pos, len)] can show what is not in the view. *)
Theorem C89_substr_beyond_undefined : forall A (block : list A) v l, items block v = Some l ->
  Z.of_nat (length block) < 2 ^ 64 -> forall pos, vsize v < pos < 2 ^ 64 -> items block (substr_from v pos) = None.
Proof. intros A block v l H F pos. exact (@substr_from_beyond A block v l pos H F). Qed.
Print Assumptions C89_substr_beyond_undefined.
Example C89_substr_beyond_case : let v := {| vbegin := 1; vsize := 2 |} in let block := [1; 2; 3; 4; 5; 6] in
  items block (substr_from v 3) = None.
Proof. vm_compute. reflexivity. Qed.
Theorem C89_substr_outside_refuted : exists (block : list Z) v l pos len r x, items block v = Some l /\
  items block (substr v pos len) = Some r /\ In x r /\ ~ In x l.
Proof.
  exists [1; 2; 3; 4; 5], {| vbegin := 1; vsize := 2 |}, [2; 3], 1, 2, [3; 4], 4. split; [reflexivity|]. split; [reflexivity|].
  split; [right; now left|]. intros [H|[H|[]]]; discriminate.
Qed.
Print Assumptions C89_substr_outside_refuted.
