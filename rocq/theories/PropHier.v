(** C57: two levels of cache. *)
From Coq Require Import NArith PeanoNat List Bool Lia.
From Verif Require Import Bits Params Msg Rtl Mem Spec System Facts1 Live Harness HierSpec Hier Hier2 HierHarness.
Import ListNotations.
Open Scope N_scope.

(** C57.  Connect the memory port of one cache to the client port of another whose
    data width is the first one's line.  If the client sends no WRITE, both levels
    run in an environment as the other properties assume it: for the second, the
    first is a well-behaved client, and for the first, the second is a memory with
    initial contents [m0].  So everything proved of [sys_run] holds of both levels. *)
Theorem C57_two_levels : forall p1 p2 s1 s2 is m0 m rq rs, wf_params p1 -> wf_params p2 -> fits p1 p2 ->
  stack_run p1 p2 s1 s2 is m0 m rq rs -> no_write (upper p1 p2 s1 s2 is) ->
  sys_run p2 s2 (map snd (stack p1 p2 s1 s2 is)) m0 m rq rs /\
  exists m1 rq1, sys_run p1 s1 (map fst (stack p1 p2 s1 s2 is)) m0 m1 rq1 [].
Proof.
  exact (fun p1 p2 s1 s2 is m0 m rq rs W1 W2 F => stack_levels p1 p2 W1 W2 F is s1 s2 m0 m rq rs).
Qed.
Print Assumptions C57_two_levels.

(** In particular the client sees a flat byte memory, in order. *)
Theorem C57_flat_memory : forall p1 p2 s1 s2 is m0 m rq rs, wf_params p1 -> wf_params p2 -> fits p1 p2 ->
  stack_run p1 p2 s1 s2 is m0 m rq rs -> no_write (upper p1 p2 s1 s2 is) ->
  let tr := upper p1 p2 s1 s2 is in
  exists rest, flat_data p1 m0 (accepted tr) = map cr_data (responses tr) ++ rest.
Proof.
  exact (fun p1 p2 s1 s2 is m0 m rq rs W1 W2 F R NW =>
    sys_flat p1 W1 _ _ _ _ _ _ (proj2 (stack_sys p1 p2 W1 W2 F is s1 s2 m0 m rq rs R NW))).
Qed.
Print Assumptions C57_flat_memory.

(** Two levels do not block each other: after enough cycles in which the client
    takes responses, the second level's memory port is ready and memory is not
    behind, every accepted request is answered. *)
Theorem C57_progress : forall p1 p2 s1 s2 is is2 m0 m rq rs, wf_params p1 -> wf_params p2 -> fits p1 p2 ->
  stack_run p1 p2 s1 s2 (is ++ is2) m0 m rq rs -> no_write (upper p1 p2 s1 s2 (is ++ is2)) ->
  let bound p := (2 * N.to_nat (5 * total_lines p + 3))%nat in
  let a1 := up_state p1 p2 s1 s2 is in let a2 := lo_state p1 p2 s1 s2 is in
  (bound p1 * (bound p2 + 1) <= served (lower p1 p2 s1 s2 is) (upper p1 p2 a1 a2 is2) (lower p1 p2 a1 a2 is2))%nat ->
  (length (accepted (upper p1 p2 s1 s2 is)) <= length (responses (upper p1 p2 s1 s2 (is ++ is2))))%nat.
Proof.
  exact (fun p1 p2 s1 s2 is is2 m0 m rq rs W1 W2 F R NW => stack_progress p1 p2 W1 W2 F is is2 s1 s2 m0 m rq rs R NW).
Qed.
Print Assumptions C57_progress.

(** The first level: 2 ways, 16-byte lines; the second: 2 ways, 32-byte lines, 16-byte data. *)
Definition pl2 : params := mkParams 128 2 256 16 8 128.
Lemma pl2_wf : wf_params pl2.
Proof.
  constructor; cbn; auto; try lia.
  - exists 8. split; [reflexivity | lia].
  - exists 1. split; [lia | reflexivity].
Qed.
Definition amo (o a d : N) : creq := mkCReq T_AMO_ADD o a 0 d.
Definition prog_h : list creq := [rd 1 0x10 0; rd 2 0x18 2; rd 3 0x00 0; amo 4 0x10 5; rd 5 0x10 0; rd 6 0x00 1;
  mkCReq T_INV 7 0 0 0; rd 8 0x90 0; rd 9 0x10 0; mkCReq T_FLUSH 10 0 0 0; amo 11 0x90 1; rd 12 0x90 0].
Definition is_h (cs : list choice) (prog : list creq) : list inp := fst (drive2 px pl2 (s0_a px) (s0_a pl2) mem_a [] prog cs).
Definition obs_h (u l : trace) : list creq * nat * bool := (accepted u, length (responses u), Nat.ltb (length (memreqs l)) (length (memreqs u))).
Lemma obs_h_ok : forall u l, obs_h u l = (prog_h, 12%nat, true) ->
  no_write u /\ accepted u = prog_h /\ length (responses u) = 12%nat /\ (length (memreqs l) < length (memreqs u))%nat.
Proof.
  intros u l E. unfold obs_h in E. assert (A1 := f_equal (fun x => fst (fst x)) E). assert (A2 := f_equal (fun x => snd (fst x)) E). assert (A3 := f_equal snd E).
  cbn [fst snd] in A1, A2, A3. apply Nat.ltb_lt in A3. unfold no_write. rewrite A1. split; [repeat constructor; discriminate|auto].
Qed.
(** All twelve requests are answered, and some of the first level's misses hit in the second. *)
Example C57_example : fits px pl2 /\ exists is m rq rs, stack_run px pl2 (s0_a px) (s0_a pl2) is mem_a m rq rs /\
  let up := upper px pl2 (s0_a px) (s0_a pl2) is in let lo := lower px pl2 (s0_a px) (s0_a pl2) is in
  no_write up /\ accepted up = prog_h /\ length (responses up) = 12%nat /\ (length (memreqs lo) < length (memreqs up))%nat.
Proof.
  split; [split; reflexivity|]. exists (is_h (lively 150 0) prog_h). do 3 eexists. split; [apply drive2_run; apply wf_all; reflexivity|].
  cbv zeta. apply obs_h_ok. vm_compute. reflexivity.
Qed.

(** A run as in C57_progress: the first 60 cycles and 2162 more. *)
Lemma served_tail : forall p1 p2 s1 s2 k is n, served [] (upper p1 p2 s1 s2 is) (lower p1 p2 s1 s2 is) = n ->
  (n - k <= served (lower p1 p2 s1 s2 (firstn k is)) (upper p1 p2 (up_state p1 p2 s1 s2 (firstn k is)) (lo_state p1 p2 s1 s2 (firstn k is)) (skipn k is))
    (lower p1 p2 (up_state p1 p2 s1 s2 (firstn k is)) (lo_state p1 p2 s1 s2 (firstn k is)) (skipn k is)))%nat.
Proof.
  intros p1 p2 s1 s2 k is n S. rewrite <- (firstn_skipn k is), upper_app, lower_app, served_app in S by apply ul_length.
  pose proof (served_le (upper p1 p2 s1 s2 (firstn k is)) (lower p1 p2 s1 s2 (firstn k is)) []) as L1.
  pose proof (productive_le (lower p1 p2 s1 s2 (firstn k is)) []) as L2.
  assert (L3 : (length (lower p1 p2 s1 s2 (firstn k is)) <= k)%nat).
  { unfold lower. rewrite SysFacts.trace_length, map_length.
    assert (E : forall l s1 s2, length (stack p1 p2 s1 s2 l) = length l) by (clear; induction l; intros; cbn [stack]; cbv zeta; cbn [length]; auto).
    rewrite E. apply firstn_le_length. }
  cbn [app] in S. lia.
Qed.
Lemma stack_firstn : forall p1 p2 s1 s2 k is m0 m rq rs, stack_run p1 p2 s1 s2 is m0 m rq rs -> stack_run p1 p2 s1 s2 (firstn k is ++ skipn k is) m0 m rq rs.
Proof. intros. rewrite firstn_skipn. auto. Qed.
Example C57_progress_example : exists is is2 m rq rs, stack_run px pl2 (s0_a px) (s0_a pl2) (is ++ is2) mem_a m rq rs /\
  let bound p := (2 * N.to_nat (5 * total_lines p + 3))%nat in
  let a1 := up_state px pl2 (s0_a px) (s0_a pl2) is in let a2 := lo_state px pl2 (s0_a px) (s0_a pl2) is in
  (bound px * (bound pl2 + 1) <= served (lower px pl2 (s0_a px) (s0_a pl2) is) (upper px pl2 a1 a2 is2) (lower px pl2 a1 a2 is2))%nat.
Proof.
  do 5 eexists. split; [apply (stack_firstn _ _ _ _ 60); exact (drive2_run px pl2 (eager 2222) junk_t junk_d junk_t junk_d mem_a prog_h (wf_all px prog_h eq_refl))|].
  exact (served_tail px pl2 _ _ 60 _ 2222 (served_eager px pl2 2222 (s0_a px) (s0_a pl2) mem_a [] prog_h [] (le_n 0) eq_refl)).
Qed.

(** With WRITEs the pair is not a memory.  A write-back of the first level is a WRITE
    of 16 bytes for the second, which marks one word of the line dirty (Wide.v), so the
    other words are lost when the second level replaces the line. *)
Definition prog_w : list creq := [wt 1 0x14 0 0x11; wt 2 0x10 0 0x22;
  rd 3 0x50 0; rd 4 0x90 0; rd 5 0xd0 0; rd 6 0x110 0; rd 7 0x10 0; rd 8 0x14 0].
Definition is_w := is_h (eager 200) prog_w.
Theorem C57_writes_refuted : exists p1 p2 s1 s2 is m0 m rq rs, wf_params p1 /\ wf_params p2 /\ fits p1 p2 /\
  stack_run p1 p2 s1 s2 is m0 m rq rs /\ let tr := upper p1 p2 s1 s2 is in
  length (responses tr) = length (accepted tr) /\ map cr_data (responses tr) <> flat_data p1 m0 (accepted tr).
Proof.
  exists px, pl2, (s0_a px), (s0_a pl2), is_w, mem_a. do 3 eexists. split; [exact px_wf|]. split; [exact pl2_wf|]. split; [split; reflexivity|].
  split; [apply drive2_run; apply wf_all; reflexivity|]. vm_compute. split; [reflexivity|discriminate].
Qed.
Print Assumptions C57_writes_refuted.
