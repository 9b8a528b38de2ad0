(** Property theorems C90, C91: the aligned allocator and its counters. *)
From Verif Require Import Base Alloc_Model Alloc_Spec Alloc_Proofs.
Local Open Scope Z_scope.

(** Whatever a client asks for, gives back and writes into its blocks: the blocks it holds are
    memory, do not overlap, report the size asked for, and the system has exactly one block for
    each.  Their addresses have the alignment asked for on Windows, and elsewhere if that is at
    most 16.  Missing for the property: larger alignments after realloc and sizes next to the end
    of the range of [size_t] (both false, see below). *)
Theorem C90_blocks_partial : forall windows st us peak, reach windows st us peak ->
  (forall u, In u us -> held st u /\ (windows = true \/ ualign u <= 16 -> uptr u mod ualign u = 0)) /\
  separate us /\ length (blocks st) = length us.
Proof. exact reach_held. Qed.
Print Assumptions C90_blocks_partial.

(** A new block is aligned, whatever the alignment, and the bytes of all blocks stay; without
    memory nothing changes. *)
Theorem C90_alloc_partial : forall windows st us peak align size ans, reach windows st us peak -> askable align size ->
  legal_alloc st (alloc_request align size) ans ->
  exists st' p, aligned_alloc ans st align size = Some (st', p) /\ (p = 0 <-> ans = None) /\ (p = 0 -> st' = st) /\
  (p <> 0 -> p mod align = 0 /\ forall u, In u us -> same_bytes (mem st) (uptr u) (mem st') (uptr u) (usize u)).
Proof.
  intros w st us peak align size ans R A L. destruct (alloc_step (reach_inv R) A L) as (st' & p & E & Z1 & Z2 & N).
  exists st', p. refine (conj E (conj Z1 (conj Z2 (fun H => _)))). destruct (N H) as (_ & _ & M & K). exact (conj M K).
Qed.
Print Assumptions C90_alloc_partial.

(** realloc keeps the bytes both sizes have, and the bytes of all other blocks; without memory
    nothing changes, the old block stays valid. *)
Theorem C90_realloc_partial : forall windows st us peak u size ans, reach windows st us peak -> In u us -> askable (ualign u) size ->
  legal_realloc windows st (realloc_request (uptr u) size (ualign u)) ans ->
  exists st' p, realloc ans st (uptr u) size (ualign u) = Some (st', p) /\ (p = 0 <-> ans = None) /\ (p = 0 -> st' = st) /\
  (p <> 0 -> same_bytes (mem st) (uptr u) (mem st') p (Z.min (usize u) size) /\
    forall v, In v us -> v <> u -> same_bytes (mem st) (uptr v) (mem st') (uptr v) (usize v)).
Proof.
  intros w st us peak u size ans R U A L. destruct (realloc_step (reach_inv R) U A L) as (st' & p & E & Z1 & Z2 & N).
  exists st', p. refine (conj E (conj Z1 (conj Z2 (fun H => _)))). destruct (N H) as (_ & _ & M & K). exact (conj M K).
Qed.
Print Assumptions C90_realloc_partial.

(** Giving a block back keeps the bytes of all others. *)
Theorem C90_free : forall windows st us peak u m, reach windows st us peak -> In u us ->
  legal_free st (recorrect_pointer (uptr u) (ualign u)) m ->
  exists st', free m st (uptr u) (ualign u) = Some st' /\
  forall v, In v us -> v <> u -> same_bytes (mem st) (uptr v) (mem st') (uptr v) (usize v).
Proof.
  intros w st us peak u m R U L. destruct (free_step (reach_inv R) U L) as (st' & E & _ & K). exact (ex_intro _ st' (conj E K)).
Qed.
Print Assumptions C90_free.

(** Two blocks, one byte written, the first block moved. *)
Example C90_case : exists st us peak, reach false st us peak /\
  us = [{| uptr := 12304; usize := 100; ualign := 16 |}; {| uptr := 8200; usize := 5; ualign := 1 |}] /\ peak = 105 /\
  mem st 12309 = 33 /\ get_size_of_alloc st 12304 16 = Some 100 /\ get_size_of_alloc st 8200 1 = Some 5.
Proof.
  assert (A : forall k size, 0 <= k <= 4 -> 1 <= size <= 100 -> askable (2 ^ k) size).
  { intros k size K S. split; [exists k; lia|]. split; [lia|]. pose proof (Z.pow_le_mono_r 2 k 4 ltac:(lia) ltac:(lia)). lia. }
  set (c1 := {| alloc_count := 1; free_count := 0; alloc_size := 20; free_size := 0; memory_using := 20; memory_using_max := 20 |}).
  set (c2 := {| alloc_count := 2; free_count := 0; alloc_size := 25; free_size := 0; memory_using := 25; memory_using_max := 25 |}).
  set (c3 := {| alloc_count := 2; free_count := 0; alloc_size := 105; free_size := 0; memory_using := 105; memory_using_max := 105 |}).
  assert (R1 : reach false {| blocks := [{| addr := 4096; len := 36 |}]; mem := put_word (fun _ => 7) 4096 20; cnt := c1 |}
    [{| uptr := 4112; usize := 20; ualign := 16 |}] 20).
  { refine (@r_alloc false _ _ _ 16 20 (Some (4096, fun _ => 7)) _ 4112 (r_init false (fun _ => 7)) _ _ _).
    - exact (A 4 20 ltac:(lia) ltac:(lia)).
    - split; [reflexivity|]. split; [split; [lia|]; split; [vm_compute; discriminate|]; intros b []|intros b x []].
    - reflexivity. }
  assert (R2 : forall m, reach false {| blocks := [{| addr := 4096; len := 36 |}]; mem := m; cnt := c1 |} [{| uptr := 4112; usize := 20; ualign := 16 |}] 20 ->
    reach false {| blocks := [{| addr := 8192; len := 13 |}; {| addr := 4096; len := 36 |}]; mem := put_word m 8192 5; cnt := c2 |}
      [{| uptr := 8200; usize := 5; ualign := 1 |}; {| uptr := 4112; usize := 20; ualign := 16 |}] 25).
  { intros m R. refine (@r_alloc false _ _ _ 1 5 (Some (8192, m)) _ 8200 R _ _ _).
    - exact (A 0 5 ltac:(lia) ltac:(lia)).
    - split; [reflexivity|]. split; [|intros b x _ _; reflexivity]. split; [lia|]. split; [vm_compute; discriminate|].
      intros b [<-|[]]. right. vm_compute. discriminate.
    - reflexivity. }
  assert (R3 : forall m, reach false {| blocks := [{| addr := 8192; len := 13 |}; {| addr := 4096; len := 36 |}]; mem := m; cnt := c2 |}
      [{| uptr := 8200; usize := 5; ualign := 1 |}; {| uptr := 4112; usize := 20; ualign := 16 |}] 25 -> get_bytes 8 m 4096 = 20 ->
    reach false {| blocks := [{| addr := 12288; len := 116 |}; {| addr := 8192; len := 13 |}];
        mem := put_word (fun x => if (12288 <=? x) && (x <? 12324) then m (4096 + (x - 12288)) else m x) 12288 100; cnt := c3 |}
      [{| uptr := 12304; usize := 100; ualign := 16 |}; {| uptr := 8200; usize := 5; ualign := 1 |}] 105).
  { intros m R G. refine (@r_realloc false _ _ _ {| uptr := 4112; usize := 20; ualign := 16 |} 100
      (Some (12288, fun x => if (12288 <=? x) && (x <? 12324) then m (4096 + (x - 12288)) else m x)) _ 12304 R _ _ _ _).
    - right. left. reflexivity.
    - exact (A 4 100 ltac:(lia) ltac:(lia)).
    - change (realloc_request _ _ _) with (4096, 116, 16). cbn [legal_realloc mem]. split; [reflexivity|]. split; [|split].
      + split; [lia|]. split; [lia|]. intros b [[<-|[<-|[]]] H]; cbn [addr len] in *; unfold apart; lia.
      + intros b x [[<-|[<-|[]]] H] X; cbn [addr len] in *; [|lia]. destruct (Z.leb_spec 12288 x); [lia|reflexivity].
      + intros b i [<-|[<-|[]]] H Hi Hn; cbn [addr len] in *; [lia|]. destruct (Z.leb_spec 12288 (12288 + i)); [|lia].
        destruct (Z.ltb_spec (12288 + i) 12324); [|lia]. cbn [andb]. f_equal. lia.
    - unfold realloc, get_size_of_alloc, get_overhead. cbn [uptr ualign]. change (recorrect_pointer 4112 16) with 4096. cbn [mem].
      rewrite G. reflexivity. }
  eexists. eexists. eexists. split.
  - apply R3; [apply R2; refine (@r_write false _ _ _ {| uptr := 4112; usize := 20; ualign := 16 |} 5 33 R1 _ _ _)|vm_compute; reflexivity];
      [left; reflexivity|cbn [usize]; lia|lia].
  - vm_compute. repeat split.
Qed.

(** Finding: outside Windows realloc loses an alignment of 32: the C function gets only the size. *)
Theorem C90_realloc_alignment_refuted : exists st us peak u, reach false st us peak /\ us = [u] /\
  ualign u = 32 /\ uptr u mod ualign u = 16.
Proof.
  assert (A : forall size, 1 <= size <= 100 -> askable 32 size).
  { intros size S. split; [exists 5; split; [lia|reflexivity]|]. split; [lia|]. change (Z.max 32 8) with 32. lia. }
  set (c1 := {| alloc_count := 1; free_count := 0; alloc_size := 20; free_size := 0; memory_using := 20; memory_using_max := 20 |}).
  set (c2 := {| alloc_count := 1; free_count := 0; alloc_size := 100; free_size := 0; memory_using := 100; memory_using_max := 100 |}).
  assert (R1 : reach false {| blocks := [{| addr := 4096; len := 52 |}]; mem := put_word (fun _ => 7) 4096 20; cnt := c1 |}
    [{| uptr := 4128; usize := 20; ualign := 32 |}] 20).
  { refine (@r_alloc false _ _ _ 32 20 (Some (4096, fun _ => 7)) _ 4128 (r_init false (fun _ => 7)) _ _ _).
    - exact (A 20 ltac:(lia)).
    - split; [reflexivity|]. split; [split; [lia|]; split; [vm_compute; discriminate|]; intros b []|intros b x []].
    - reflexivity. }
  assert (R2 : forall m, reach false {| blocks := [{| addr := 4096; len := 52 |}]; mem := m; cnt := c1 |}
      [{| uptr := 4128; usize := 20; ualign := 32 |}] 20 -> get_bytes 8 m 4096 = 20 ->
    reach false {| blocks := [{| addr := 8208; len := 132 |}]; mem := put_word (fun x => m (4096 + (x - 8208))) 8208 100; cnt := c2 |}
      [{| uptr := 8240; usize := 100; ualign := 32 |}] 100).
  { intros m R G. refine (@r_realloc false _ _ _ {| uptr := 4128; usize := 20; ualign := 32 |} 100
      (Some (8208, fun x => m (4096 + (x - 8208)))) _ 8240 R _ _ _ _).
    - left. reflexivity.
    - exact (A 100 ltac:(lia)).
    - change (realloc_request _ _ _) with (4096, 132, 32). cbn [legal_realloc mem]. split; [reflexivity|]. split; [|split].
      + split; [lia|]. split; [lia|]. intros b [[<-|[]] H]. cbn [addr] in H. lia.
      + intros b x [[<-|[]] H]. cbn [addr] in H. lia.
      + intros b i [<-|[]] H Hi Hn. f_equal. lia.
    - unfold realloc, get_size_of_alloc, get_overhead. cbn [uptr ualign]. change (recorrect_pointer 4128 32) with 4096. cbn [mem].
      rewrite G. reflexivity. }
  eexists. eexists. eexists. eexists. split; [apply R2; [exact R1|vm_compute; reflexivity]|]. vm_compute. repeat split.
Qed.
Print Assumptions C90_realloc_alignment_refuted.

(** Finding: the size asked of the system wraps around.  For 2^64-1 bytes it is 7, a block the
    system gladly gives, and storing the size leaves that block. *)
Theorem C90_size_wrap_refuted : exists st ans, reach false st [] 0 /\ snd (alloc_request 8 (2 ^ 64 - 1)) = 7 /\
  legal_alloc st (alloc_request 8 (2 ^ 64 - 1)) ans /\ aligned_alloc ans st 8 (2 ^ 64 - 1) = None.
Proof.
  exists {| blocks := []; mem := fun _ => 0; cnt := zero_counters |}, (Some (4096, fun _ => 0)).
  split; [apply r_init|]. split; [reflexivity|]. split; [|reflexivity].
  split; [reflexivity|]. split; [split; [lia|]; split; [vm_compute; discriminate|]; intros b []|intros b x []].
Qed.
Print Assumptions C90_size_wrap_refuted.

(** The counters: allocations less frees are the blocks held, bytes allocated less bytes freed and
    the memory in use are the bytes held, and the maximum is the largest number of bytes held at
    any time.  Missing: clearing the counters while blocks are held (false, see below). *)
Theorem C91_counters_partial : forall windows st us peak, reach windows st us peak ->
  (alloc_count (cnt st) - free_count (cnt st)) mod 2 ^ 64 = Z.of_nat (length us) /\
  (alloc_size (cnt st) - free_size (cnt st)) mod 2 ^ 64 = total us /\
  memory_using (cnt st) = total us /\ memory_using_max (cnt st) = peak.
Proof.
  intros w st us peak R. apply reach_inv in R. exact (conj (i_count R) (conj (i_size R) (conj (i_using R) (i_max R)))).
Qed.
Print Assumptions C91_counters_partial.
(** A block of 20 bytes made 100 bytes long, then given back. *)
Example C91_counters_case : exists st, reach true st [] 100 /\
  cnt st = {| alloc_count := 1; free_count := 1; alloc_size := 100; free_size := 100; memory_using := 0; memory_using_max := 100 |}.
Proof.
  assert (A : forall size, 1 <= size <= 100 -> askable 4 size).
  { intros size S. split; [exists 2; split; [lia|reflexivity]|]. split; [lia|]. change (Z.max 4 8) with 8. lia. }
  set (c1 := {| alloc_count := 1; free_count := 0; alloc_size := 20; free_size := 0; memory_using := 20; memory_using_max := 20 |}).
  set (c2 := {| alloc_count := 1; free_count := 0; alloc_size := 100; free_size := 0; memory_using := 100; memory_using_max := 100 |}).
  assert (R1 : reach true {| blocks := [{| addr := 4096; len := 28 |}]; mem := put_word (fun _ => 7) 4096 20; cnt := c1 |}
    [{| uptr := 4104; usize := 20; ualign := 4 |}] 20).
  { refine (@r_alloc true _ _ _ 4 20 (Some (4096, fun _ => 7)) _ 4104 (r_init true (fun _ => 7)) _ _ _).
    - exact (A 20 ltac:(lia)).
    - split; [reflexivity|]. split; [split; [lia|]; split; [vm_compute; discriminate|]; intros b []|intros b x []].
    - reflexivity. }
  assert (R2 : forall m, reach true {| blocks := [{| addr := 4096; len := 28 |}]; mem := m; cnt := c1 |}
      [{| uptr := 4104; usize := 20; ualign := 4 |}] 20 -> get_bytes 8 m 4096 = 20 ->
    reach true {| blocks := [{| addr := 4096; len := 108 |}]; mem := put_word m 4096 100; cnt := c2 |}
      [{| uptr := 4104; usize := 100; ualign := 4 |}] 100).
  { intros m R G. refine (@r_realloc true _ _ _ {| uptr := 4104; usize := 20; ualign := 4 |} 100 (Some (4096, m)) _ 4104 R _ _ _ _).
    - left. reflexivity.
    - exact (A 100 ltac:(lia)).
    - change (realloc_request _ _ _) with (4096, 108, 8). cbn [legal_realloc mem]. split; [reflexivity|]. split; [|split].
      + split; [lia|]. split; [lia|]. intros b [[<-|[]] H]. cbn [addr] in H. lia.
      + intros b x [[<-|[]] H]. cbn [addr] in H. lia.
      + intros b i [<-|[]] H Hi Hn. reflexivity.
    - unfold realloc, get_size_of_alloc, get_overhead. cbn [uptr ualign]. change (recorrect_pointer 4104 4) with 4096. cbn [mem].
      rewrite G. reflexivity. }
  assert (R3 : forall m, reach true {| blocks := [{| addr := 4096; len := 108 |}]; mem := m; cnt := c2 |}
      [{| uptr := 4104; usize := 100; ualign := 4 |}] 100 -> get_bytes 8 m 4096 = 100 ->
    reach true {| blocks := []; mem := fun _ => 0; cnt := {| alloc_count := 1; free_count := 1; alloc_size := 100; free_size := 100;
      memory_using := 0; memory_using_max := 100 |} |} [] 100).
  { intros m R G. refine (@r_free true _ _ _ {| uptr := 4104; usize := 100; ualign := 4 |} (fun _ => 0) _ R _ _ _).
    - left. reflexivity.
    - intros b x [[<-|[]] H]. exfalso. apply H. reflexivity.
    - unfold free, get_size_of_alloc, get_overhead. cbn [uptr ualign]. change (recorrect_pointer 4104 4) with 4096. cbn [mem].
      rewrite G. reflexivity. }
  eexists. split; [eapply R3; [apply R2; [exact R1|vm_compute; reflexivity]|vm_compute; reflexivity]|reflexivity].
Qed.

(** Finding: after [clear()] while a block of 20 bytes is held, giving it back leaves 2^64-20 bytes
    in use, and that is the maximum from then on. *)
Theorem C91_clear_refuted : exists st u m st', reach false st [u] 20 /\ usize u = 20 /\
  free m (clear st) (uptr u) (ualign u) = Some st' /\
  memory_using (cnt st') = 2 ^ 64 - 20 /\ memory_using_max (cnt st') = 2 ^ 64 - 20.
Proof.
  assert (A : askable 8 20).
  { split; [exists 3; split; [lia|reflexivity]|]. split; [lia|]. change (Z.max 8 8) with 8. lia. }
  pose proof (r_init false (fun _ => 7)) as R.
  eapply r_alloc with (align := 8) (size := 20) (ans := Some (4096, fun _ => 7)) in R;
    [|exact A|split; [reflexivity|]; split; [split; [lia|]; split; [vm_compute; discriminate|]; intros b []|intros b x []]|reflexivity].
  eexists. eexists. exists (fun _ => 0). eexists. split; [exact R|]. split; [reflexivity|]. split; [reflexivity|]. vm_compute. split; reflexivity.
Qed.
Print Assumptions C91_clear_refuted.
