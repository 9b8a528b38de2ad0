(** The concrete setting used in the examples and counterexamples of P_Str.v. *)
From Verif Require Import Base Bits_Spec Ref_Model List_Model Str_Model Str_Heap Str_Own Str_Read Str_Obs Str_Merge Str_Uniq Str_Cmp_Model Str_Api_Model Str_Spec Str_Guard Str_Class.
Local Open Scope nat_scope.

(** What the model leaves open, fixed: the exact handle counter, the golden ratio
    (H/base_defs/math.hpp:585-590) to six digits, small strings of 32 and more
    characters copied become nodes (H/string/defs.hpp:126-129), reading never
    replaces a node by an array
    (H/string/string_data_t/base_string_data_t.hpp:432-438), compile-time strings
    end with zero, and of two equal nodes the first is replaced by the second
    (459-464), as for nodes of the same cost. *)
Definition usual : orc :=
  Orc uniq (fun n => Z.to_nat (Z.of_nat n * 1618034 / 1000000)) (Nat.leb 32)
      (fun _ _ => false) (fun _ _ => true) (fun _ _ _ => true).
(** A program in that setting. *)
Definition usually (l : list op) : list (orc * op) := map (fun x => (usual, x)) l.
(** 64-bit hashes; the hash of a character is its code (H/base_defs/hash.hpp:118-130). *)
Definition hc64 (c : Z) : Z := c.
(** The results of a program in that setting, if it is defined. *)
Definition results (l : list op) : option (list out) :=
  match run 64 hc64 40 st0 (usually l) with Ok (_, os) => Some os | _ => None end.
Definition undefined (l : list op) : bool :=
  match run 64 hc64 40 st0 (usually l) with Ub => true | _ => false end.
(** The results the operations should have. *)
Definition expected (l : list op) : option (list sout) := option_map snd (sruns [] l).
(** Some letters. *)
Definition A := 97%Z. Definition B := 98%Z. Definition C := 99%Z. Definition D := 100%Z.
Definition E := 101%Z. Definition F := 102%Z. Definition X := 120%Z. Definition Y := 121%Z.
(** The last result of a program and what it should be. *)
Definition final {T} (x : option (list T)) : option T :=
  match x with Some (a :: t) => Some (last t a) | _ => None end.
Definition ends (l : list op) : option out * option sout := (final (results l), final (expected l)).
(** A program whose operations are all permitted but whose execution is not defined. *)
Definition breaks (l : list op) : bool := andb (undefined l) (match expected l with Some _ => true | None => false end).

Lemma usual_sound : forall l, Forall (fun x => Sound (fst x)) (usually l).
Proof.
  intros l. unfold usually. rewrite Forall_map, Forall_forall. intros x _. split.
  - apply uniq_single.
  - intros n. change (gold (fst (usual, x)) n) with (Z.to_nat (Z.of_nat n * 1618034 / 1000000)). apply Nat2Z.inj_le. rewrite Z2Nat.id; [|apply Z.div_pos; lia]. apply Z.div_le_lower_bound; lia.
Qed.
Lemma usual_ops : forall l, map snd (usually l) = l.
Proof. intros l. unfold usually. rewrite map_map. cbn. apply map_id. Qed.

(** A comparison that makes a node contain itself: [x="ab"], [y=x+"c"],
    [y.erase(2,1)], eight copies of [y] (so that the cost of [y], divided by its
    handles, is below that of [x]), [x==y]. *)
Definition ring : list op :=
  [ONew [A; B]; OPlusV true 0 [C]; OErase 1 2 1] ++ repeat (OCopy 1) 8 ++ [OCmp true 0 1].
Definition ring_state : st :=
  match run 64 hc64 40 st0 (usually ring) with Ok (s, _) => s | _ => st0 end.
Lemma ring_loops : forall f o p, In o [1; 2; 3] -> p < 2 -> arec f (hp ring_state) o p = Out.
Proof.
  intros f o p I L. assert (exists H, hp ring_state = H /\ H = hp ring_state) as (H & EH & EH') by eauto. rewrite EH.
  vm_compute in EH'. revert o p I L. induction f as [|f IH]; intros o p I L; auto. subst H.
  destruct p as [|[|p]]; [| |lia]; destruct I as [<-|[<-|[<-|[]]]]; cbn [arec kd nth_error rb Nat.leb Nat.ltb Nat.add Nat.sub]; apply IH; cbn; auto; lia.
Qed.
Lemma ring_diverges : forall g f k p, k < 10 -> p < 2 -> step 64 hc64 g f ring_state (OAt k p) = Out.
Proof.
  intros g f k p Lk Lp. cbn [step].
  assert (V : exists o, In o [1; 2; 3] /\ getv ring_state k = Ok (VPtr o)).
  { do 10 (destruct k as [|k]; [eexists; split; [|vm_compute; reflexivity]; cbn; auto|]). lia. }
  destruct V as (o & I & ->). cbn [rb]. rewrite ring_loops; auto.
Qed.

Lemma ring_then : exists s os, run 64 hc64 40 st0 (usually ring) = Ok (s, os) /\
  forall g f k p, k < 10 -> p < 2 -> step 64 hc64 g f s (OAt k p) = Out.
Proof.
  assert (D : exists os, run 64 hc64 40 st0 (usually ring) = Ok (ring_state, os)) by (eexists; vm_compute; reflexivity).
  destruct D as (os & D). exists ring_state, os. split; [exact D|exact ring_diverges].
Qed.

(** A program that inserts, removes and pops, and meets the conditions of the
    general theorem. *)
Definition mixed : list op :=
  [ONew [A; B; C; D]; OInsertV 0 2 [X; Y]; OAt 0 3; ORemove false 0 1; OPop true 0 1; OSize 0; OAt 0 1; OData 1; ONew [E; F]; OPlus 0 2; OHash 3; ONew [E; F]; OCmp true 4 2].
Ltac next := let s := fresh "s" in let o := fresh "o" in let f0 := fresh "f0" in let Q := fresh "Q" in
  intros s o (f0 & Q); specialize (Q (40 + f0) ltac:(lia)); vm_compute in Q; injection Q as <- <-.
Lemma mixed_safe : Safe 64 hc64 st0 (usually mixed).
Proof.
  unfold mixed, usually. cbn [map].
  constructor; [exact Logic.I|next].
  constructor.
  { intros o p N [T R]. cbn in N. injection N as <-. inversion T; subst; [|cbn in *; discriminate].
    right. eexists _, _. split; [reflexivity|exact Logic.I]. }
  next. constructor; [exact Logic.I|next].
  constructor.
  { intros o p N [T R]. cbn in N. injection N as <-. inversion T; subst; [|cbn in *; discriminate].
    left. intros q k c Rq Nq. do 4 (destruct q as [|q]; [cbn in Nq; injection Nq as <- <-; cbn; (split; [auto|]); try congruence; intros _; apply uniq_single; vm_compute; reflexivity|]).
    destruct q; discriminate. }
  next. constructor.
  { intros o p N [T R]. cbn in N. injection N as <-. inversion T; subst; [|cbn in *; discriminate].
    split; [|left].
    - intros q k c Rq Nq. do 6 (destruct q as [|q]; [cbn in Nq; try discriminate; injection Nq as <- <-; cbn; auto; lia|]). destruct q; discriminate.
    - intros q k c p k' c' _ Nq Sq. do 6 (destruct q as [|q]; [cbn in Nq; try discriminate; injection Nq as <- <-; destruct Sq|]). destruct q; discriminate. }
  next. constructor; [exact Logic.I|next]. constructor; [exact Logic.I|next].
  constructor.
  { intros o N. cbn in N. injection N as <-. apply w_plain. intros q k c Rq Nq.
    inversion Rq as [|? d ? (k2 & c2 & E2 & I2) R2]; subst; [cbn in Nq; injection Nq as <- <-; exact Logic.I|].
    cbn in E2. injection E2 as <- <-. destruct I2 as [<-|[]].
    inversion R2 as [|? d ? (k3 & c3 & E3 & I3) R3]; subst; [cbn in Nq; injection Nq as <- <-; exact Logic.I|].
    cbn in E3. injection E3 as <- <-. destruct I3. }
  next. constructor; [exact Logic.I|next]. 
  constructor.
  { discriminate. }
  next. constructor.
  { split; [|intros z N; cbn in N; discriminate]. intros o N. cbn in N. injection N as <-.
    eapply w_sum; [reflexivity| |].
    - eapply w_sub; [reflexivity|]. eapply w_ins; [reflexivity| |].
      + intros q k c Rq Nq. inversion Rq as [|? d ? (k2 & c2 & E2 & I2) R2]; subst; [cbn in Nq; injection Nq as <- <-; exact Logic.I|].
        cbn in E2. injection E2 as <- <-. destruct I2 as [<-|[]].
        inversion R2 as [|? d ? (k3 & c3 & E3 & I3) R3]; subst; [cbn in Nq; injection Nq as <- <-; exact Logic.I|].
        cbn in E3. injection E3 as <- <-. destruct I3.
      + apply w_plain. intros q k c Rq Nq. inversion Rq as [|? d ? (k2 & c2 & E2 & I2) R2]; subst; [cbn in Nq; injection Nq as <- <-; exact Logic.I|].
        cbn in E2. injection E2 as <- <-. destruct I2.
    - apply w_plain. intros q k c Rq Nq. inversion Rq as [|? d ? (k2 & c2 & E2 & I2) R2]; subst; [cbn in Nq; injection Nq as <- <-; exact Logic.I|].
      cbn in E2. injection E2 as <- <-. destruct I2. }
  next. constructor; [exact Logic.I|next]. constructor; [|intros; constructor].
  intros v u Nv Nu. cbn in Nv, Nu. injection Nv as <-. injection Nu as <-.
  match goal with |- node_cmp _ _ (hp ?s) _ _ =>
    assert (R : forall r, r = 7 \/ r = 9 -> forall q k c, reach (hp s) r q -> nth_error (hp s) q = Some (k, c) -> cmpk true k /\ nosub k) end.
  { intros r Er q k c Rq Nq. inversion Rq as [|? d ? (k2 & c2 & E2 & I2) R2]; subst;
      (destruct Er as [-> | ->]; [cbn in Nq|cbn in Nq]).
    1, 2: injection Nq as <- <-; split; exact Logic.I.
    all: cbn in E2; injection E2 as <- <-; destruct I2. }
  split; [|split].
  - intros r k c [Rr|Rr] Nr; [apply (R 9 (or_intror eq_refl) _ _ _ Rr Nr)|apply (R 7 (or_introl eq_refl) _ _ _ Rr Nr)].
  - discriminate.
  - left. intros r k c [Rr|Rr] Nr; [apply (R 9 (or_intror eq_refl) _ _ _ Rr Nr)|apply (R 7 (or_introl eq_refl) _ _ _ Rr Nr)].
Qed.
