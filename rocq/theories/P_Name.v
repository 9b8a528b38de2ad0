(** Property theorems C115: names of types and functions. *)
From Verif Require Import Base Name_Model Name_Spec Name_Proofs.

(** ** C115 *)
(** Every program that makes, copies, moves, ends and reads names sees what it would see
    if names were texts, the text of a name being the whole block that the demangler
    gives; it is undefined exactly where a name has no readable form, the function
    there has no name, or a name is used outside its life.  When all names have ended no
    memory is in use. *)
Theorem C115_texts : forall dem dl os,
  match all_on_texts (fun t => match dem t with Some (u, g) => Some (u ++ 0%Z :: g) | None => None end) dl (fun _ => None, 0) os with
  | Some (w, l) => exists s, n_run dem dl nst0 os = NFine (s, l) /\
                   ((forall i, fst w i = None) -> forall b, nmem s b = None)
  | None => n_run dem dl nst0 os = NUndef
  end.
Proof. exact as_texts. Qed.
Print Assumptions C115_texts.
Example C115_texts_case :
  let dem t := match t with [105]%Z => Some ([105; 110; 116], [7])%Z | _ => None end in
  match n_run dem (fun _ => Some (Some [105]%Z)) nst0
    [NType [105]%Z; NCopy 0; NMove 0; NFunction 5%Z; NText 0; NText 1; NEnd 1; NText 2; NText 3; NEnd 0; NEnd 2; NEnd 3] with
  | NFine (s, l) => l = [[]; []; []; []; []; [105; 110; 116; 0; 7]; []; [105; 110; 116; 0; 7]; [105; 110; 116; 0; 7]; []; []; []]%Z /\
      map (nmem s) [0; 1; 2; 3] = [None; None; None; None]
  | NUndef => False
  end.
Proof. vm_compute. split; reflexivity. Qed.

(** Every name is longer than the readable form: it has the terminator and all that is
    behind it in the block. *)
Theorem C115_length_wrong : forall dem dl t u g, dem t = Some (u, g) ->
  exists s v, n_run dem dl nst0 [NType t; NText 0] = NFine (s, [[]; v]) /\ v = u ++ 0%Z :: g /\ length u < length v.
Proof. exact too_long. Qed.
Print Assumptions C115_length_wrong.
(** Asking for the name of a type or a function that has no readable form, of a function
    without a name, or at an address where no function is known (as "unknown" has no
    readable form) is undefined after every program. *)
Theorem C115_unreadable_undefined : forall dem dl os o,
  (exists t, o = NType t /\ dem t = None) \/ (exists a, o = NFunction a /\
     (dl a = Some None \/ (exists t, dl a = Some (Some t) /\ dem t = None) \/
      (dl a = None /\ dem [117; 110; 107; 110; 111; 119; 110]%Z = None))) ->
  n_run dem dl nst0 (os ++ [o]) = NUndef.
Proof. exact unreadable. Qed.
Print Assumptions C115_unreadable_undefined.
Example C115_unreadable_case :
  let dem t := match t with [105]%Z => Some ([105; 110; 116], [])%Z | _ => None end in
  let dl a := if Z.eqb a 1 then Some (Some [109; 97; 105; 110]%Z) else if Z.eqb a 2 then Some None else None in
  n_run dem dl nst0 [NType [105]%Z; NFunction 1] = NUndef /\
  n_run dem dl nst0 [NType [105]%Z; NFunction 2] = NUndef /\
  n_run dem dl nst0 [NType [105]%Z; NFunction 3] = NUndef /\
  n_run dem dl nst0 [NType [105]%Z; NText 0] <> NUndef.
Proof. vm_compute. repeat split; try reflexivity. discriminate. Qed.
