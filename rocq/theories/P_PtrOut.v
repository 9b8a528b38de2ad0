(** C123: the output of pointers. *)
From Verif Require Import Base UBig_Model BigInt_Model NumRepr_Model NumRepr_Spec PtrOut_Model PtrOut_Spec PtrOut_Proofs.

(** The text of a pointer is the name of its type, then the name of the type of the
    object in parentheses if that is another one, then "@" and the address in
    hexadecimal.  Missing for the property: pointers to classes with virtual functions
    that point to no object. *)
Theorem C123_pointer_partial : forall (name : nat -> list Z) open_class object t a,
  0 <= a < 2 ^ 64 -> (open_class t = true -> object a <> None) ->
  exists s, out_pointer name open_class object t a = Some s /\
    says_at s (name t ++ match object a with
                         | Some d => if open_class t && negb (Nat.eqb d t) then 40 :: name d ++ [41] else []
                         | None => [] end) a.
Proof. exact pointer_right. Qed.
Print Assumptions C123_pointer_partial.
(** Type 0 is called "A" and is the base of type 1, "B"; type 2, "i", has no virtual functions. *)
Example C123_pointer_case :
  let name := fun t => match t with 0%nat => [65] | 1%nat => [66] | _ => [105] end in
  let virt := fun t => Nat.ltb t 2 in
  let object := fun a => if a =? 4096 then Some 1%nat else if a =? 255 then Some 2%nat else None in
  out_pointer name virt object 0 4096 = Some [65; 40; 66; 41; 64; 49; 48; 48; 48] /\
  out_pointer name virt object 1 4096 = Some [66; 64; 49; 48; 48; 48] /\
  out_pointer name virt object 2 255 = Some [105; 64; 102; 102] /\
  out_pointer name virt object 2 0 = Some [105; 64; 48].
Proof. vm_compute. repeat split. Qed.

(** The text of a function is its name, "@" and the address. *)
Theorem C123_function : forall (name : nat -> list Z) f a, 0 <= a < 2 ^ 64 ->
  exists s, out_function name f a = Some s /\ says_at s (name f) a.
Proof. exact function_right. Qed.
Print Assumptions C123_function.
Example C123_function_case : out_function (fun _ => [102; 64]) 0 171 = Some [102; 64; 64; 97; 98].
Proof. vm_compute. reflexivity. Qed.

(** A text says one address only and has one front only, even if names have "@" in them:
    pointers to different addresses never have the same text. *)
Theorem C123_unique : forall s l a l' a', says_at s l a -> says_at s l' a' -> l = l' /\ a = a'.
Proof. exact says_unique. Qed.
Print Assumptions C123_unique.
Example C123_unique_case : says_at [102; 64; 64; 97; 98] [102; 64] 171.
Proof.
  exists [97; 98]. split; [reflexivity|]. split.
  - cbn. intros [H | [H | []]]; discriminate H.
  - exists [10; 11]. repeat split; try discriminate. repeat constructor; discriminate.
Qed.

(** A pointer to a class with virtual functions that points to no object, such as a null
    pointer, cannot be written: the type of the object is asked for. *)
Theorem C123_null_undefined : forall (name : nat -> list Z) open_class object t a,
  open_class t = true -> object a = None -> out_pointer name open_class object t a = None.
Proof. exact null_undefined. Qed.
Print Assumptions C123_null_undefined.
Example C123_null_case : out_pointer (fun _ => [65]) (fun _ => true) (fun a => if a =? 0 then None else Some 0%nat) 0 0 = None.
Proof. vm_compute. reflexivity. Qed.
