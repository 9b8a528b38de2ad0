(** The output of pointers as text (H/_multi/arithmetic_text_io.hpp:128-155).
    Simplified: names of types and functions are any texts (they are in
    Name_Model.v); [size_t] has 64 bits; the stream takes everything that is written
    to it. *)
From Verif Require Import Base UBig_Model BigInt_Model NumRepr_Model.

Section PtrOut.
(** The name of a type or of a function ([get_name], [get_function_name]:
    H/_multi/arithmetic_text_io.hpp:132,136,150). *)
Variable name : nat -> list Z.
(** The types that are polymorphic and not final (H/_multi/arithmetic_text_io.hpp:133). *)
Variable open_class : nat -> bool.
(** The dynamic type of the object at an address, as far as there is a live one
    ([type_info_of]: H/_multi/arithmetic_text_io.hpp:134). *)
Variable object : Z -> option nat.

(** [to_string((size_t)data,hexadecimal)] (H/_multi/arithmetic_text_io.hpp:139,152). *)
Definition address_text (a : Z) : option (list Z) := print_native hexadecimal 64 a [].
(** What stands between the name and the address (H/_multi/arithmetic_text_io.hpp:133-137);
    [None]: the type of an object that does not exist was asked for. *)
Definition dynamic_part (t : nat) (a : Z) : option (list Z) :=
  if open_class t then
    match object a with
    | None => None
    | Some d => if Nat.eqb d t then Some [] else Some ([40] ++ name d ++ [41])
    end
  else Some [].
(** A pointer with the static type [t] (H/_multi/arithmetic_text_io.hpp:129-141). *)
Definition out_pointer (t : nat) (a : Z) : option (list Z) :=
  match dynamic_part t a, address_text a with
  | Some d, Some h => Some (name t ++ d ++ [64] ++ h)
  | _, _ => None
  end.
(** A function (H/_multi/arithmetic_text_io.hpp:145-154). *)
Definition out_function (f : nat) (a : Z) : option (list Z) :=
  match address_text a with Some h => Some (name f ++ [64] ++ h) | None => None end.
End PtrOut.
