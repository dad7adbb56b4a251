(** Properties that are false of the code, with what does hold: C26, C27, C34. *)
From Coq Require Import NArith List Bool Lia.
From Verif Require Import Bits Params Msg Rtl Mem Spec System SysProofs Harness Wide Faults.
Import ListNotations.
Open Scope N_scope.

(** *** C26: writes wider than a word are lost on eviction *)
(** Whatever the client sends, a write-back writes only words in which an
    accepted WRITE starts (or the next one, for len = 3) ... *)
Theorem C26_writeback_words : forall p s0 is m0 m rq rs, wf_params p -> any_run p s0 is m0 m rq rs ->
  forall q k, In q (memreqs (trace_of p s0 is)) -> mq_type q = T_WRITE -> N.testbit (mq_mask q) k = true ->
  exists r, In r (accepted (trace_of p s0 is)) /\ first_word p r (mq_addr q + 4 * k).
Proof. intros p s0 is m0 m rq rs W R. exact (any_mask p W s0 is m0 m rq rs R). Qed.
Print Assumptions C26_writeback_words.

(** ... so bytes of a wide WRITE beyond its first word never reach memory. *)
Theorem C26_memory_words : forall p s0 is m0 m rq rs, wf_params p -> any_run p s0 is m0 m rq rs ->
  forall x, (forall r, In r (accepted (trace_of p s0 is)) -> ~ first_word p r x /\ ~ amo_word r x) -> m x = m0 x.
Proof. intros p s0 is m0 m rq rs W R. exact (any_mem p W s0 is m0 m rq rs R). Qed.
Print Assumptions C26_memory_words.

(** A 64-bit port: WRITE of 8 bytes at 0x10, two READs that evict the line, READ. *)
Definition prog_wide : list creq := [wt 1 0x10 0 0x1122334455667788; rd 2 0x30 0; rd 3 0x50 0; rd 4 0x10 0].
Definition tr_wide : trace := trace_of px64 (s0_a px64) (is_a px64 prog_wide (eager 60)).
(** "every naturally aligned request no wider than the port behaves as on a flat
    memory" is false *)
Theorem C26_wide_write_refuted : exists p s0 is m0 m,
  wf_params p /\ any_run p s0 is m0 m [] [] /\
  let tr := trace_of p s0 is in
  Forall (fun r => cq_len r = 0 /\ cq_addr r mod (p_dbw p / 8) = 0 /\ (cq_type r = T_READ \/ cq_type r = T_WRITE)) (accepted tr) /\
  length (responses tr) = length (accepted tr) /\
  map cr_data (responses tr) <> flat_data p m0 (accepted tr).
Proof.
  exists px64, (s0_a px64), (is_a px64 prog_wide (eager 60)), mem_a, (fst (end_a px64 prog_wide (eager 60))).
  split; [apply px64_wf|]. split.
  { replace [] with (snd (end_a px64 prog_wide (eager 60))) by (vm_compute; reflexivity).
    apply run_any. reflexivity. }
  cbv zeta.
  assert (A : accepted (trace_of px64 (s0_a px64) (is_a px64 prog_wide (eager 60))) = prog_wide) by (vm_compute; reflexivity).
  rewrite A. split; [|split].
  - unfold prog_wide. repeat (apply Forall_cons; [split; [reflexivity | split; [reflexivity | auto]] |]). constructor.
  - vm_compute. reflexivity.
  - vm_compute. discriminate.
Qed.
Print Assumptions C26_wide_write_refuted.
(** the hypotheses of the general theorems are met by the same run, and the byte
    at 0x14 (second half of the write) is one the client did write *)
Example C26_ex : exists m, any_run px64 (s0_a px64) (is_a px64 prog_wide (eager 60)) mem_a m [] [] /\
  m 0x10 = 0x88 /\ m 0x14 = mem_a 0x14 /\
  length (filter (fun q => mq_type q =? T_WRITE) (memreqs tr_wide)) = 1%nat.
Proof.
  exists (fst (end_a px64 prog_wide (eager 60))). split.
  { replace [] with (snd (end_a px64 prog_wide (eager 60))) by (vm_compute; reflexivity). apply run_any. reflexivity. }
  vm_compute. auto.
Qed.

(** *** C27: WRITE_INIT in a 2-way cache *)
(** A READ straight after a WRITE_INIT of the same word returns something else;
    and a WRITE_INIT of one line changes what a READ of another line returns. *)
Theorem C27_write_init_refuted : exists p s0 is m0 m rs A r1 r2 Y y,
  wf_params p /\ p_assoc p = 2 /\ reset_state p s0 /\ let tr := trace_of p s0 is in
  Forall (fun io => i_req_en (fst io) = true -> o_req_rdy (snd io) = true) tr /\
  mem_trace p m0 [] [] tr m [] rs /\
  accepted tr = A ++ [r1; r2] /\ length (responses tr) = length (accepted tr) /\ responses tr = Y ++ [y] /\
  cq_type r1 = T_INIT /\ cq_type r2 = T_READ /\ cq_addr r1 = cq_addr r2 /\ cq_len r1 = 0 /\ cq_len r2 = 0 /\
  cr_opq y = cq_opq r2 /\ cr_data y <> trunc (p_dbw p) (cq_data r1).
Proof.
  set (pr := firstn 4 prog_i). set (is := is_a px pr (eager 60)).
  exists px, (s0_a px), is, mem_a, (fst (end_a px pr (eager 60))), (snd (end_a px pr (eager 60))),
    [ini 1 0x10 0 0x11; rd 2 0x10 0], (ini 3 0x30 0 0x22), (rd 4 0x30 0), (removelast (responses (trace_of px (s0_a px) is))),
    (last (responses (trace_of px (s0_a px) is)) (mkCResp 0 0 0 0 0)).
  split; [apply px_wf|]. split; [reflexivity|]. split; [apply mk_reset_ok|]. cbv zeta.
  destruct (drive_gen (fun _ => True) px (eager 60) (s0_a px) mem_a [] pr) as [D1 D2].
  { apply Forall_forall. auto. }
  split. { eapply Forall_impl; [|exact D1]. cbn beta. intros io X E. apply X; auto. }
  split; [exact D2|]. vm_compute. repeat split; auto. discriminate.
Qed.
Print Assumptions C27_write_init_refuted.

Theorem C27_init_corrupts_refuted : exists p s0 is m0 m rs,
  wf_params p /\ p_assoc p = 2 /\ reset_state p s0 /\ let tr := trace_of p s0 is in
  Forall (fun io => i_req_en (fst io) = true -> o_req_rdy (snd io) = true) tr /\
  mem_trace p m0 [] [] tr m [] rs /\
  accepted tr = [ini 1 0x10 0 0x11; rd 2 0x10 0; ini 3 0x30 0 0x22; rd 4 0x30 0; rd 5 0x10 0] /\
  map (fun y => (cr_opq y, cr_data y)) (responses tr) = [(1, 0); (2, 0x11); (3, 0); (4, 0); (5, 0x22)].
Proof.
  exists px, (s0_a px), (is_a px prog_i (eager 60)), mem_a, (fst (end_a px prog_i (eager 60))), (snd (end_a px prog_i (eager 60))).
  split; [apply px_wf|]. split; [reflexivity|]. split; [apply mk_reset_ok|]. cbv zeta.
  destruct (drive_gen (fun _ => True) px (eager 60) (s0_a px) mem_a [] prog_i) as [D1 D2].
  { apply Forall_forall. auto. }
  split. { eapply Forall_impl; [|exact D1]. cbn beta. intros io X E. apply X; auto. }
  split; [exact D2|]. vm_compute. auto.
Qed.
Print Assumptions C27_init_corrupts_refuted.

(** *** C34: acknowledgements must not be late *)
(** With a supported client and a memory that executes in order but answers out
    of order, a request is accepted and never answered: an old one is answered
    twice instead, and the accepted WRITE has no effect. *)
Theorem C34_out_of_order_refuted : exists p s0 is m0 m,
  wf_params p /\ reset_state p s0 /\ let tr := trace_of p s0 is in
  client_ok p tr /\ mem_trace_ooo p m0 [] [] tr m [] [] /\
  map cq_opq (accepted tr) = [1; 2; 3; 4; 5] /\ map cr_opq (responses tr) = [1; 2; 3; 3; 5] /\
  nth 4 (map cr_data (responses tr)) 0 <> nth 4 (flat_data p m0 (accepted tr)) 0.
Proof.
  exists px, (s0_a px), (fst (drive_ooo px (s0_a px) mem_a [] prog_l late)), mem_a,
    (fst (snd (drive_ooo px (s0_a px) mem_a [] prog_l late))).
  split; [apply px_wf|]. split; [apply mk_reset_ok|]. cbv zeta.
  destruct (drive_ooo_ok (wf_req px) px late (s0_a px) mem_a [] prog_l) as [D1 D2].
  { apply wf_all. reflexivity. }
  split; [exact D1|]. split.
  { assert (E : snd (snd (drive_ooo px (s0_a px) mem_a [] prog_l late)) = []) by (vm_compute; reflexivity).
    rewrite E in D2. exact D2. }
  vm_compute. repeat split; auto. discriminate.
Qed.
Print Assumptions C34_out_of_order_refuted.
