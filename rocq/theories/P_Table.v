(** Property theorems C34, C35: hash table and map. *)
From Verif Require Import Base Table_Model Table_Spec Table_Hash Table_Map.
Local Open Scope nat_scope.

(** ** C34 *)
(** For every history of additions, removals, lookups and clearings, from a new table,
    with a hash function that respects equality (any collisions, so any
    distribution over the buckets, and any number of resizes): no memory
    error, every lookup succeeds exactly when the element was added more often
    than removed, every removal reports whether there was something to remove,
    the size is the number of elements held, a traversal visits exactly
    these, and exactly so many nodes are allocated: nothing leaks. *)
Theorem C34_table_stable_hash :
  forall (T : Type) (eqb : T -> T -> bool), equivalence eqb ->
  forall gold : nat -> nat, (forall n, 0 < n -> 0 < gold n) ->
  forall (mx : Z) (hf : T -> Z) (fuel : nat) (os : list (top_t T)),
  stable_hashes eqb hf os -> length os < fuel ->
  exists h t, t_run eqb gold mx false fuel (heap0, t_new 5) os = Done (h, t, answers eqb [] os) /\
    t_size t = Z.of_nat (total eqb (rev os)) /\
    exists l, t_visit fuel h t = Done l /\ length l = total eqb (rev os) /\
      (forall y, length (filter (fun x => eqb x y) l) = copies eqb y (rev os)) /\
    exists al, NoDup al /\ length al = total eqb (rev os) /\ forall a, cell h a <> None <-> In a al.
Proof. intros T eqb HE gold HG mx hf fuel os S. exact (@table_multiset T eqb HE gold HG mx false hf fuel os (or_intror S)). Qed.
Print Assumptions C34_table_stable_hash.
(** The same for element types whose hash may change between operations: then
    nothing at all is required of the hash, each operation may see a different
    function. *)
Theorem C34_table_unstable_hash :
  forall (T : Type) (eqb : T -> T -> bool), equivalence eqb ->
  forall gold : nat -> nat, (forall n, 0 < n -> 0 < gold n) ->
  forall (mx : Z) (fuel : nat) (os : list (top_t T)), length os < fuel ->
  exists h t, t_run eqb gold mx true fuel (heap0, t_new 5) os = Done (h, t, answers eqb [] os) /\
    t_size t = Z.of_nat (total eqb (rev os)) /\
    exists l, t_visit fuel h t = Done l /\ length l = total eqb (rev os) /\
      (forall y, length (filter (fun x => eqb x y) l) = copies eqb y (rev os)) /\
    exists al, NoDup al /\ length al = total eqb (rev os) /\ forall a, cell h a <> None <-> In a al.
Proof. intros T eqb HE gold HG mx fuel os. exact (@table_multiset T eqb HE gold HG mx true (fun _ => 0%Z) fuel os (or_introl eq_refl)). Qed.
Print Assumptions C34_table_unstable_hash.
(** Bucket capacity 1, so the table grows repeatedly; 1 is added twice and
    removed once; with the unstable hash every operation hashes differently. *)
Definition C34_ops (h : nat -> Z -> Z) : list (top_t Z) :=
  [OAdd (h 0) 1%Z; OAdd (h 1) 6%Z; OAdd (h 2) 1%Z; OAdd (h 3) 11%Z; OFind (h 4) 6%Z; OFind (h 5) 2%Z; ORemove (h 6) 1%Z;
   OFind (h 7) 1%Z; ORemove (h 8) 2%Z; ORemove (h 9) 1%Z; OFind (h 10) 1%Z; OFind (h 11) 11%Z;
   OClear Z; OFind (h 12) 11%Z; OAdd (h 13) 4%Z; OFind (h 14) 4%Z].
Example C34_case :
  equivalence Z.eqb /\ stable_hashes Z.eqb (fun x => x) (C34_ops (fun _ x => x)) /\
  (exists h t, t_run Z.eqb S 1 false 20 (heap0, t_new 5) (C34_ops (fun _ x => x)) =
     Done (h, t, [true; true; true; true; true; false; true; true; false; true; false; true; true; false; true; true]) /\ length t = 5) /\
  (exists h t, t_run Z.eqb S 1 true 20 (heap0, t_new 5) (C34_ops (fun n x => x * Z.of_nat n)%Z) =
     Done (h, t, [true; true; true; true; true; false; true; true; false; true; false; true; true; false; true; true])).
Proof.
  split; [|split; [|split]].
  - split; [apply Z.eqb_refl|]. split; [apply Z.eqb_sym|]. intros x y z A B.
    apply Z.eqb_eq in A, B. apply Z.eqb_eq. congruence.
  - split; [intros x y; apply Z.eqb_eq|]. repeat constructor.
  - eexists _, _. split; vm_compute; reflexivity.
  - eexists _, _. vm_compute. reflexivity.
Qed.

(** ** C35 *)
(** Maps behave as functions from keys to values that are the default almost
    everywhere: for every history over any number of maps, every read gives the
    last value written to that key of that map (or the default, also after
    [clear]), comparing two maps says whether they agree on every key,
    [for_each] sees the value of every key that has an entry exactly once and
    can replace these values, and the size is the number of those keys.  Missing for the full claim:
    comparing a map with itself. *)
Theorem C35_maps_partial :
  forall (K V : Type) (keqb : K -> K -> bool) (veqb : V -> V -> bool) (dflt : V),
  equivalence keqb -> equivalence veqb ->
  forall gold : nat -> nat, (forall n, 0 < n -> 0 < gold n) ->
  forall (mx : Z) (unst : bool) (hk : K -> Z) (fuel : nat) (os : list (mop_t K V)),
  Forall (usual_op veqb) os -> (unst = true \/ stable_key_hashes keqb hk os) -> length os < fuel ->
  exists w l, m_run keqb veqb dflt gold mx unst fuel (world0 K V) os = Done (w, l) /\
    answers_ok keqb veqb dflt (start K dflt) os l.
Proof. exact maps_are_functions. Qed.
Print Assumptions C35_maps_partial.
(** When every map an entry was ever made in is cleared, no node of any map
    stays allocated: whatever the history, no operation loses one. *)
Theorem C35_no_leak_partial :
  forall (K V : Type) (keqb : K -> K -> bool) (veqb : V -> V -> bool) (dflt : V),
  equivalence keqb -> equivalence veqb ->
  forall gold : nat -> nat, (forall n, 0 < n -> 0 < gold n) ->
  forall (mx : Z) (unst : bool) (hk : K -> Z) (fuel : nat) (os : list (mop_t K V)) (is : list nat),
  Forall (usual_op veqb) os -> (unst = true \/ stable_key_hashes keqb hk os) ->
  (forall i o, In o os -> fills i o -> In i is) -> length os + length is < fuel ->
  exists w l, m_run keqb veqb dflt gold mx unst fuel (world0 K V) (os ++ map (@MClear K V) is) = Done (w, l) /\
    forall a, cell (wh w) a = None.
Proof. exact maps_no_leak. Qed.
Print Assumptions C35_no_leak_partial.
(** Comparing a map with itself never returns as soon as two of its keys with
    non-default values share one of the five initial buckets. *)
Theorem C35_self_compare_diverges :
  forall (K V : Type) (keqb : K -> K -> bool) (veqb : V -> V -> bool) (dflt : V),
  equivalence keqb -> equivalence veqb ->
  forall gold : nat -> nat, (forall n, 0 < n -> 0 < gold n) ->
  forall (mx : Z) (unst : bool) (hk : K -> Z) (fuel : nat) (os : list (mop_t K V)) (i : nat) (k1 k2 : K),
  unst = false -> Forall (usual_op veqb) os -> stable_key_hashes keqb hk os ->
  (Z.of_nat (length os) <= mx)%Z -> S (length os) < fuel ->
  keqb k1 k2 = false -> (hk k1 mod 5 = hk k2 mod 5)%Z ->
  veqb dflt (fst (fold_left (effect keqb veqb dflt) os (start K dflt)) i k1) = false ->
  veqb dflt (fst (fold_left (effect keqb veqb dflt) os (start K dflt)) i k2) = false ->
  m_run keqb veqb dflt gold mx unst fuel (world0 K V) (os ++ [MEq V hk i i]) = Spin.
Proof. exact self_compare_spins. Qed.
Print Assumptions C35_self_compare_diverges.
(** Two maps with colliding keys, an overwritten key, a resize (capacity 1) and
    comparisons before and after; traversals, an update of all values and
    [clear]; then the diverging comparison. *)
Definition C35_id (x : Z) : Z := x.
Definition C35_ops : list (mop_t Z Z) :=
  [MSet C35_id 0 1%Z 10%Z; MSet C35_id 0 6%Z 20%Z; MSet C35_id 0 1%Z 30%Z; MCGet Z C35_id 0 1%Z; MGet Z C35_id 0 2%Z;
   MSet C35_id 1 6%Z 20%Z; MEq Z C35_id 0 1; MSet C35_id 1 1%Z 30%Z; MEq Z C35_id 0 1; MSet C35_id 0 6%Z 0%Z;
   MShrink Z Z 0; MEq Z C35_id 1 0; MCGet Z C35_id 0 6%Z;
   MGet Z C35_id 0 8%Z; MSize Z Z 0; MVisit Z Z 0; MUpdate Z 0 (Z.add 1); MVisit Z Z 0; MCGet Z C35_id 0 8%Z; MCGet Z C35_id 0 9%Z;
   MClear Z Z 1; MVisit Z Z 1; MCGet Z C35_id 1 6%Z; MSize Z Z 0; MSize Z Z 1].
Example C35_case :
  Forall (usual_op Z.eqb) C35_ops /\ stable_key_hashes Z.eqb C35_id C35_ops /\
  (exists w, m_run Z.eqb Z.eqb 0%Z S 1 false 30 (world0 Z Z) C35_ops =
     Done (w, [ANone Z; ANone Z; ANone Z; AVal 30; AVal 0; ANone Z; ABool Z false; ANone Z; ABool Z true; ANone Z;
               ANone Z; ABool Z false; AVal 0; AVal 0; ASize Z 2; AVals [30; 0]; ANone Z; AVals [31; 1]; AVal 1; AVal 0;
               ANone Z; AVals []; AVal 0; ASize Z 2; ASize Z 0]%Z)) /\
  (forall i o, In o C35_ops -> fills i o -> In i [1; 0]) /\
  m_run Z.eqb Z.eqb 0%Z S 256 false 1000 (world0 Z Z)
    ([MSet C35_id 0 1%Z 10%Z; MSet C35_id 0 6%Z 20%Z] ++ [MEq Z C35_id 0 0]) = Spin /\
  (exists w, m_run Z.eqb Z.eqb 0%Z S 256 false 1000 (world0 Z Z)
    [MSet C35_id 0 1%Z 10%Z; MSet C35_id 0 7%Z 20%Z; MEq Z C35_id 0 0] = Done (w, [ANone Z; ANone Z; ABool Z true])).
Proof.
  split; [|split; [|split; [|split; [|split]]]].
  - repeat constructor; cbn; try discriminate. intros x y E. apply Z.eqb_eq in E. subst. apply Z.eqb_refl.
  - split; [intros x y; apply Z.eqb_eq|]. repeat constructor.
  - eexists. vm_compute. reflexivity.
  - intros i o I F. unfold C35_ops in I. cbn [In] in I.
    repeat (destruct I as [<-|I]; [cbn in F; subst; cbn; tauto|]). destruct I.
  - vm_compute. reflexivity.
  - eexists. vm_compute. reflexivity.
Qed.
