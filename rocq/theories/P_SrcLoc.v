(** C122: where memory was asked for. *)
From Verif Require Import Base SrcLoc_Model SrcLoc_Spec SrcLoc_Proofs.

(** For every nesting of guards in which each question is asked inside of a guard that
    has a frame: each answer is the file and the line of the outermost such guard, and
    at the end nothing is left of any of them.  Missing for the property: questions
    outside of guards, and pointers that are kept. *)
Theorem C122_outermost_partial : forall F (file_of : F -> option (list Z)) (line_of : F -> option Z) p s,
  frame s = None /\ fileptr s = None /\ lineval s = 0%Z -> guarded None p ->
  (frame (snd (run file_of line_of p s)) = None /\ fileptr (snd (run file_of line_of p s)) = None /\
   lineval (snd (run file_of line_of p s)) = 0%Z) /\
  map (fun a => Some (afile a, aline a)) (fst (run file_of line_of p s)) = places file_of line_of None p.
Proof. exact outermost. Qed.
Print Assumptions C122_outermost_partial.
(** A guard at frame 5 around one at frame 6, then one at frame 7 for which the name of
    the file cannot be found; an inner guard on a stack that is not deep enough. *)
Example C122_outermost_case :
  let file := fun f : Z => if Z.eqb f 7 then None else Some [f; 46]%Z in
  let line := fun f => Some (10 * f)%Z in
  let p := PGuard (Some 5%Z) (PAsk (PGuard (Some 6%Z) (PAsk PEnd) (PAsk PEnd))) (PGuard None (PGuard (Some 7%Z) (PAsk PEnd) PEnd) PEnd) in
  guarded None p /\
  map (fun a => (afile a, aline a)) (fst (run file line p (sl_init Z))) =
    [(ShText [5; 46], 50); (ShText [5; 46], 50); (ShText [5; 46], 50); (ShNull, 70)]%Z.
Proof. vm_compute. repeat split; discriminate. Qed.

(** A question outside of all guards leaves the empty name behind, so that inside of
    the next guard the line is right but the file is not, whatever the file is. *)
Theorem C122_unguarded_wrong : forall F (file_of : F -> option (list Z)) (line_of : F -> option Z) s f t n,
  frame s = None /\ fileptr s = None /\ lineval s = 0%Z -> file_of f = Some t -> line_of f = Some n ->
  map (fun a => (afile a, aline a)) (fst (run file_of line_of (PAsk (PGuard (Some f) (PAsk PEnd) PEnd)) s)) =
    [(ShText [], 0%Z); (ShText [], n)].
Proof. exact unguarded. Qed.
Print Assumptions C122_unguarded_wrong.
Example C122_unguarded_case :
  map (fun a => (afile a, aline a)) (fst (run (fun f : Z => Some [f; f]) (fun f => Some f)
    (PAsk (PGuard (Some 5%Z) (PAsk PEnd) (PGuard (Some 5%Z) (PAsk PEnd) PEnd))) (sl_init Z))) =
  [(ShText [], 0%Z); (ShText [], 5%Z); (ShText [5; 5]%Z, 5%Z)].
Proof. vm_compute. reflexivity. Qed.

(** Whatever happens inside of an outermost guard, all pointers to names that were given
    inside of it still show the same name just before it ends. *)
Theorem C122_valid_inside_partial : forall F (file_of : F -> option (list Z)) (line_of : F -> option Z) p s f,
  frame s = None /\ fileptr s = None /\ lineval s = 0%Z ->
  Forall (fun a => look (snd (run file_of line_of p (fst (enter s (Some f))))) (aptr a) = afile a)
    (fst (run file_of line_of p (fst (enter s (Some f))))).
Proof. exact valid_inside. Qed.
Print Assumptions C122_valid_inside_partial.
Example C122_valid_case :
  let r := run (fun f : Z => Some [f]%Z) (fun f : Z => Some f) (PAsk (PGuard (Some 6%Z) (PAsk PEnd) (PAsk PEnd))) (fst (enter (sl_init Z) (Some 5%Z))) in
  map (fun a => look (snd r) (aptr a)) (fst r) = [ShText [5]; ShText [5]; ShText [5]]%Z.
Proof. vm_compute. reflexivity. Qed.

(** The pointers to names of files that were given are all invalid as soon as the name of
    a file is looked up for another guard; the allocator keeps them for its reports. *)
Theorem C122_kept_dangles : forall F (file_of : F -> option (list Z)) (line_of : F -> option Z) p q s,
  frame s = None /\ fileptr s = None /\ lineval s = 0%Z -> guarded None p ->
  Exists (fun a => aptr a <> None) (fst (run file_of line_of q (snd (run file_of line_of p s)))) ->
  Forall (fun a => aptr a <> None -> look (snd (run file_of line_of q (snd (run file_of line_of p s)))) (aptr a) = ShDangling)
    (fst (run file_of line_of p s)).
Proof. exact dangles. Qed.
Print Assumptions C122_kept_dangles.
Example C122_kept_case :
  let file := fun f : Z => Some [f]%Z in let line := fun f : Z => Some f in
  let p := PGuard (Some 5%Z) (PAsk PEnd) PEnd in let q := PGuard (Some 5%Z) (PAsk PEnd) PEnd in
  let s := snd (run file line p (sl_init Z)) in
  guarded None p /\ Exists (fun a => aptr a <> None) (fst (run file line q s)) /\
  map (fun a => look s (aptr a)) (fst (run file line p (sl_init Z))) = [ShText [5]%Z] /\
  map (fun a => look (snd (run file line q s)) (aptr a)) (fst (run file line p (sl_init Z))) = [ShDangling].
Proof. vm_compute. repeat split; try discriminate. apply Exists_cons_hd. discriminate. Qed.
