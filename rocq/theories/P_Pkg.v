(** Property theorems C114: which packages are loaded. *)
From Coq Require Import String.
From Verif Require Import Base Pkg_Model Pkg_Spec Pkg_Proofs.

(** ** C114 *)
(** The list of packages to load is enough for the dependencies, has no package twice,
    and every package in it can be found and is one that the dependencies speak of,
    whatever the random numbers are. *)
Theorem C114_load : forall found inst rnd r L, load_list found inst rnd r = Got L ->
  enough L r /\ all_different L /\ forall p, In p L -> found p = true /\ mentions r p.
Proof. exact load_ok. Qed.
Print Assumptions C114_load.
(** Going on from a list keeps the list. *)
Theorem C114_grow : forall found inst rnd r pl k pl' k', get_relay found inst rnd r pl k = (Got pl', k') ->
  exists e, pl' = pl ++ e /\ enough pl' r /\ (all_different pl -> all_different pl') /\
  forall p, In p e -> found p = true /\ mentions r p.
Proof. exact grown_ok. Qed.
Print Assumptions C114_grow.
Example C114_load_case :
  let p s := mkPkg s 0%Z 0%Z in
  let found q := negb (String.eqb (pname q) "C"%string) in
  let r := RAll [RAll [RPick [ROne (p "C"%string); RAll [ROne (p "D"%string); ROne (p "E"%string)]]; ROne (p "B"%string)]; ROne (p "A"%string); ROne (p "E"%string)] in
  load_list found (fun _ => true) (fun n => n) r = Got [p "D"%string; p "E"%string; p "B"%string; p "A"%string].
Proof. vm_compute. reflexivity. Qed.

(** Where an alternative has no alternatives itself: the chosen one makes the list as
    short as any, and among the shortest has the most packages installed. *)
Theorem C114_best_partial : forall found inst rnd l pl k pl' k', (forall r, In r l -> plain r) ->
  get_relay found inst rnd (RPick l) pl k = (Got pl', k') ->
  forall r c k1 k2, In r l -> get_relay found inst rnd r pl k1 = (Got c, k2) ->
  length pl' <= length c /\ (length c = length pl' -> how_many inst c <= how_many inst pl').
Proof. exact best. Qed.
Print Assumptions C114_best_partial.
(** Where an alternative has no alternatives itself: if what is needed is there or can
    be found, then a list is given, or the call is undefined; the latter only where
    some packages are installed and some are not. *)
Theorem C114_found_partial : forall found inst rnd r, flat r -> forall pl k, can_be_met found pl r ->
  (exists c k', get_relay found inst rnd r pl k = (Got c, k')) \/
  (exists k', get_relay found inst rnd r pl k = (Undef, k')) /\ exists a b, inst a <> inst b.
Proof. exact flat_met. Qed.
Print Assumptions C114_found_partial.
Example C114_best_case :
  let p s := mkPkg s 0%Z 0%Z in
  let inst q := String.eqb (pname q) "B"%string in
  let l := [RAll [ROne (p "A"%string); ROne (p "B"%string)]; ROne (p "B"%string); ROne (p "A"%string)] in
  (forall r, In r l -> plain r) /\ flat (RPick l) /\ can_be_met (fun _ => true) [] (RPick l) /\
  get_relay (fun _ => true) inst (fun n => n) (RPick l) [] 5 = (Got [p "B"%string], 6).
Proof.
  cbv zeta.
  assert (P : forall r, In r [RAll [ROne (mkPkg "A"%string 0%Z 0%Z); ROne (mkPkg "B"%string 0%Z 0%Z)]; ROne (mkPkg "B"%string 0%Z 0%Z); ROne (mkPkg "A"%string 0%Z 0%Z)] -> plain r).
  { intros r [<-|[<-|[<-|[]]]]; try constructor. intros x [<-|[<-|[]]]; constructor. }
  repeat split; try assumption.
  - now constructor.
  - apply B_pick with (ROne (mkPkg "B"%string 0%Z 0%Z)); [right; now left|now apply B_find].
Qed.

(** Of two packages that can be found the second is installed and the first is not:
    the program divides by zero. *)
Theorem C114_installed_undefined : forall found inst rnd a b pl k,
  ~ In (pname a, pmajor a) (map (fun q => (pname q, pmajor q)) pl) ->
  ~ In (pname b, pmajor b) (map (fun q => (pname q, pmajor q)) pl) ->
  found a = true -> found b = true -> inst a = false -> inst b = true ->
  fst (get_relay found inst rnd (RPick [ROne a; ROne b]) pl k) = Undef.
Proof. exact second_installed. Qed.
Print Assumptions C114_installed_undefined.
(** A package is there in an older version that will not do: nothing is added. *)
Theorem C114_minor_wrong : forall found inst rnd p q pl k, In q pl -> stands_for q p -> (pminor q < pminor p)%Z ->
  get_relay found inst rnd (ROne p) pl k = (Got pl, k).
Proof. intros found inst rnd p q pl k I St _. now apply old_minor with q. Qed.
Print Assumptions C114_minor_wrong.
(** An alternative that has alternatives none of which can be found ends the search
    although the next alternative could be taken. *)
Theorem C114_nested_refuted : exists found inst r, can_be_met found [] r /\
  forall rnd, load_list found inst rnd r = NoPick.
Proof.
  exists (fun q => String.eqb (pname q) "B"%string), (fun _ => true), (RPick [RPick [ROne (mkPkg "A"%string 0%Z 0%Z)]; ROne (mkPkg "B"%string 0%Z 0%Z)]).
  split.
  - apply B_pick with (ROne (mkPkg "B"%string 0%Z 0%Z)); [right; now left|now apply B_find].
  - intros rnd. vm_compute. reflexivity.
Qed.
Print Assumptions C114_nested_refuted.
Example C114_wrong_case :
  let p s n := mkPkg s 1%Z n in
  let found (_ : pkg) := true in let inst q := String.eqb (pname q) "B"%string in
  fst (get_relay found inst (fun n => n) (RPick [ROne (p "A"%string 0%Z); ROne (p "B"%string 0%Z)]) [p "X"%string 0%Z] 0) = Undef /\
  fst (get_relay found inst (fun n => n) (RPick [ROne (p "B"%string 0%Z); ROne (p "A"%string 0%Z)]) [p "X"%string 0%Z] 0) = Got [p "X"%string 0%Z; p "B"%string 0%Z] /\
  load_list found inst (fun n => n) (RAll [ROne (p "A"%string 0%Z); ROne (p "A"%string 5%Z)]) = Got [p "A"%string 0%Z].
Proof. vm_compute. repeat split; reflexivity. Qed.
