(** Property theorems C104: the random generator as a state machine.  [draw_word mult k]
    draws an unsigned word of [2^k] bytes with multiplier [mult]; [wf] says that a state is
    one a generator can be in. *)
From Verif Require Import Base Bits_Model Bits_Spec Rand_Model Seed_Model Seed_Spec Seed_Proofs.
Local Open Scope Z_scope.

(** Setting a seed determines the whole state, whatever the generator did before. *)
Theorem C104_set : forall g s, length (g_table g) = table_bytes -> 0 <= s < 2 ^ 64 ->
  exists g', set_seed g s = Some g' /\ get_origin g' = s /\ wf g' /\ g_seed g' = sown 256 s /\
    (forall i, (i < 256)%nat -> cell 8 i (g_table g') = Z.lxor (sown (255 - i) s) (sown (255 - i) s / 2 ^ 32)) /\
    (forall g2, length (g_table g2) = table_bytes -> set_seed g2 s = Some g').
Proof. exact set_all. Qed.
Print Assumptions C104_set.
(** Setting the same seed again after any draws starts the same sequence again. *)
Theorem C104_reset : forall mult g0 s g ws g', length (g_table g0) = table_bytes -> 0 <= s < 2 ^ 64 ->
  set_seed g0 s = Some g -> draws (draw_word mult) g ws g' -> set_seed g' s = Some g.
Proof. exact reset_spec. Qed.
Print Assumptions C104_reset.
Example C104_set_case : length (g_table (Gen 0 0 (repeat 0 table_bytes))) = table_bytes /\
  option_map g_seed (set_seed (Gen 0 0 (repeat 0 table_bytes)) 5) = Some (sown 256 5) /\
  option_map (fun g => nth 2040 (g_table g) 0) (set_seed (Gen 0 0 (repeat 0 table_bytes)) 5) = Some 5 /\
  option_map (fun g => nth 2032 (g_table g) 0) (set_seed (Gen 0 0 (repeat 0 table_bytes)) 5) = Some 72.
Proof. split; [vm_compute; reflexivity|]. split; [vm_compute; reflexivity|]. split; vm_compute; reflexivity. Qed.

(** A copy of a generator is in the same state, whatever its memory held. *)
Theorem C104_copy : forall fresh g, length (g_table g) = table_bytes -> length fresh = table_bytes ->
  copy_gen fresh g = Some g.
Proof. exact copy_gen_spec. Qed.
Print Assumptions C104_copy.
Example C104_copy_case : length (repeat 9 table_bytes) = table_bytes /\
  length (g_table (Gen 3 4 (repeat 7 table_bytes))) = table_bytes.
Proof. split; vm_compute; reflexivity. Qed.

(** Drawing a word of one, two or four bytes: the table is read and written inside its
    bounds; the seed makes one step of the congruential generator; the result is the top
    of the new seed, rotated by the top of the old one, combined with one word of the
    table, which the result replaces; nothing else changes. *)
Theorem C104_draw : forall mult k g, (k <= 2)%nat -> wf g ->
  exists i x r g', draw_word mult k g = Some (r, g') /\ wf g' /\ get_origin g' = get_origin g /\
    g_seed g' = (mult * g_seed g + 1) mod 2 ^ 64 /\
    Z.of_nat i = top_bits (lvl_bits k) (g_seed g) mod (2048 / 2 ^ Z.of_nat k) /\
    rotated_left (lvl_bits k) (top_bits (lvl_bits k) (g_seed g')) (top_bits (lvl_bits k) (g_seed g)) x /\
    r = Z.lxor x (cell (Nat.pow 2 k) i (g_table g)) /\ 0 <= r < 2 ^ lvl_bits k /\
    cell (Nat.pow 2 k) i (g_table g') = r /\
    (forall n, (n < i * Nat.pow 2 k \/ i * Nat.pow 2 k + Nat.pow 2 k <= n)%nat ->
       nth n (g_table g') 0 = nth n (g_table g) 0).
Proof. exact draw_all. Qed.
Print Assumptions C104_draw.
(** Wider words are two draws of half the width, the high half first. *)
Theorem C104_halves : forall mult k g, (2 <= k)%nat -> wf g ->
  exists h g1 l g2, draw_word mult k g = Some (h, g1) /\ draw_word mult k g1 = Some (l, g2) /\
    draw_word mult (S k) g = Some (h * 2 ^ lvl_bits k + l, g2).
Proof. exact draw_word_halves. Qed.
Print Assumptions C104_halves.
(** Every draw of any width is defined, in range and keeps the origin. *)
Theorem C104_word : forall mult k g, wf g ->
  exists r g', draw_word mult k g = Some (r, g') /\ wf g' /\ 0 <= r < 2 ^ lvl_bits k /\ g_origin g' = g_origin g.
Proof. intros mult k g. exact (@draw_word_ok mult k g). Qed.
Print Assumptions C104_word.
Example C104_draw_case : wf (Gen 12345678901234567890 5 (repeat 7 table_bytes)) /\
  option_map fst (draw_word 44973896861 1 (Gen 12345678901234567890 5 (repeat 7 table_bytes))) = Some 56422 /\
  option_map fst (draw_word 44973896861 3 (Gen 12345678901234567890 5 (repeat 7 table_bytes))) = Some 7519963388957476516.
Proof.
  split; [split; [vm_compute; split; congruence|split; [vm_compute; reflexivity|]]|].
  { apply Forall_forall. intros x Hx. apply repeat_spec in Hx. subst x. vm_compute. split; congruence. }
  vm_compute. auto.
Qed.

(** With an odd multiplier, which C43 establishes, no two states become the same: a draw
    loses nothing of the state. *)
Theorem C104_no_merge : forall mult k, Z.odd mult = true -> forall g1 g2 r1 r2 g, wf g1 -> wf g2 ->
  draw_word mult k g1 = Some (r1, g) -> draw_word mult k g2 = Some (r2, g) -> g1 = g2.
Proof. exact draw_word_inj. Qed.
Print Assumptions C104_no_merge.
(** Whatever the seed, every value can be drawn, for a suitable table. *)
Theorem C104_attained : forall mult k g r, (k <= 2)%nat -> wf g -> 0 <= r < 2 ^ lvl_bits k ->
  exists t g', wf (Gen (g_seed g) (g_origin g) t) /\
    draw_small mult k (Gen (g_seed g) (g_origin g) t) = Some (r, g').
Proof. exact draw_small_attains. Qed.
Print Assumptions C104_attained.
Example C104_no_merge_case : Z.odd 44973896861 = true /\
  wf (Gen 1 5 (repeat 7 table_bytes)) /\ 0 <= 77 < 2 ^ lvl_bits 2.
Proof.
  split; [reflexivity|]. split; [|vm_compute; split; congruence].
  split; [vm_compute; split; congruence|split; [vm_compute; reflexivity|]].
  apply Forall_forall. intros x Hx. apply repeat_spec in Hx. subst x. vm_compute. split; congruence.
Qed.

(** A random object of any size is defined: its bytes are those of successively drawn
    words, each byte written once, inside the object and at aligned addresses, and none
    left uninitialised. *)
Theorem C104_object : forall mult size g, wf g ->
  exists ws g', draws (draw_word mult) g ws g' /\ wf g' /\ length (laid ws) = size /\
    draw_object mult size g = Some (g', map Some (laid ws)).
Proof. exact draw_object_spec. Qed.
Print Assumptions C104_object.
Example C104_object_case :
  option_map snd (draw_object 44973896861 15 (Gen 12345678901234567890 5 (repeat 7 table_bytes))) =
  Some (map Some [164; 198; 192; 26; 220; 70; 92; 104; 116; 41; 227; 242; 31; 2; 177]).
Proof. vm_compute. reflexivity. Qed.
