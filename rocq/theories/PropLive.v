(** C14-C16: timing independence, progress, and the need for both sides to be ready together. *)
From Coq Require Import NArith List Bool Lia.
From Verif Require Import Bits Params Msg Rtl Mem Spec System SysProofs SysFacts Facts1 Facts6 Timing Progress Harness.
Import ListNotations.
Open Scope N_scope.

(** C14.  Two runs from any two power-up states over the same initial memory,
    whatever their schedules (stalls, memory latencies, idle cycles).  If one has
    accepted the same requests as the other, or a continuation of them, the
    response sequences agree up to how far each has got (one is a prefix of the
    other), and so do the memory request sequences.  [strip] removes the opaque
    field of write-backs (which memory only echoes in an acknowledgement the
    cache ignores) and data bits beyond the port width. *)
Theorem C14_timing_independent : forall p s0 is m0 m rq rs s0' is' m' rq' rs' more, wf_params p ->
  sys_run p s0 is m0 m rq rs -> sys_run p s0' is' m0 m' rq' rs' ->
  let tr := trace_of p s0 is in let tr' := trace_of p s0' is' in
  accepted tr' = accepted tr ++ more ->
  comparable (responses tr) (responses tr') /\
  comparable (map (strip p) (memreqs tr)) (map (strip p) (memreqs tr')).
Proof. exact (fun p s0 is m0 m rq rs s0' is' m' rq' rs' more W => sys_timing p W s0 is m0 m rq rs s0' is' m' rq' rs' more). Qed.
Print Assumptions C14_timing_independent.

(** Once everything is answered both runs have produced the same responses, the
    same memory requests and the same memory contents. *)
Theorem C14_same_results : forall p s0 is m0 m rq rs s0' is' m' rq' rs', wf_params p ->
  sys_run p s0 is m0 m rq rs -> sys_run p s0' is' m0 m' rq' rs' ->
  let tr := trace_of p s0 is in let tr' := trace_of p s0' is' in
  accepted tr' = accepted tr ->
  length (responses tr) = length (accepted tr) -> length (responses tr') = length (accepted tr') ->
  responses tr = responses tr' /\ map (strip p) (memreqs tr) = map (strip p) (memreqs tr') /\ forall a, m a = m' a.
Proof. exact (fun p s0 is m0 m rq rs s0' is' m' rq' rs' W => sys_timing_done p W s0 is m0 m rq rs s0' is' m' rq' rs'). Qed.
Print Assumptions C14_same_results.

(** Two different schedules of the same requests, and a half-way one. *)
Example C14_example : let prog := firstn 8 prog_a in
  let tr n := trace_of px (s0_a px) (is_a px prog (lively n 0)) in
  let tr' n := trace_of px (s0_a px) (is_a px prog (eager n)) in
  map (fun k => length (accepted (tr k))) [30%nat; 60%nat] = [6%nat; 8%nat] /\
  map (fun k => length (responses (tr k))) [30%nat; 60%nat] = [5%nat; 8%nat] /\
  length (responses (tr' 50%nat)) = 8%nat /\ accepted (tr 60%nat) = accepted (tr' 50%nat) /\
  map (fun io => i_mresp_en (fst io)) (tr 50%nat) <> map (fun io => i_mresp_en (fst io)) (tr' 50%nat).
Proof. vm_compute. repeat split. discriminate. Qed.

(** C15.  In any run: whatever has been accepted by some point is answered by the
    time the run has had, after that point, [2 * (5 * lines + 3)] productive
    cycles: cycles in which memory and sink are both ready and memory is not
    behind (nothing outstanding, or an answer is delivered).  Nothing is assumed
    about the other cycles. *)
Theorem C15_progress : forall p is is2 s0 m0 m rq rs, wf_params p -> sys_run p s0 (is ++ is2) m0 m rq rs ->
  let tr := trace_of p s0 is in
  (2 * N.to_nat (5 * total_lines p + 3) <= productive_cycles tr (trace_of p (fst (run p s0 is)) is2))%nat ->
  (length (accepted tr) <= length (responses (trace_of p s0 (is ++ is2))))%nat.
Proof. exact (fun p is is2 s0 m0 m rq rs W => sys_progress p W is is2 s0 m0 m rq rs). Qed.
Print Assumptions C15_progress.

(** With both sides always ready and a memory of latency at most [L], everything
    accepted is answered within [2 * (5 * lines + 3) * (L + 1)] cycles. *)
Theorem C15_latency : forall p L is is2 s0 m0 m rq rs, wf_params p -> sys_run p s0 (is ++ is2) m0 m rq rs ->
  let tr := trace_of p s0 is in let tr2 := trace_of p (fst (run p s0 is)) is2 in
  Forall (fun i => i_resp_rdy i && i_mreq_rdy i = true) is2 -> answers_within L tr tr2 ->
  (2 * N.to_nat (5 * total_lines p + 3) * (L + 1) <= length is2)%nat ->
  (length (accepted tr) <= length (responses (trace_of p s0 (is ++ is2))))%nat.
Proof. exact (fun p L is is2 s0 m0 m rq rs W => sys_progress_latency p W L is is2 s0 m0 m rq rs). Qed.
Print Assumptions C15_latency.

(** A run with enough productive cycles: a request accepted and unanswered after
    60 cycles, and 70 more cycles with some stalls, 46 of them productive. *)
Example C15_example : let cs := lively 130 0 in let all := is_a px (firstn 10 prog_a) cs in
  let is := firstn 60 all in let is2 := skipn 60 all in let tr := trace_of px (s0_a px) is in
  length (accepted tr) = 10%nat /\ length (responses tr) = 9%nat /\
  Nat.leb (2 * N.to_nat (5 * total_lines px + 3))
          (productive_cycles tr (trace_of px (fst (run px (s0_a px) is)) is2)) = true.
Proof. vm_compute. auto. Qed.

(** C16.  While memory and sink are never ready in the same cycle, nothing comes
    out of the cache (from any state, with any inputs). *)
Theorem C16_never_both : forall p s0 is is2,
  Forall (fun i => i_resp_rdy i && i_mreq_rdy i = false) is2 ->
  responses (trace_of p s0 (is ++ is2)) = responses (trace_of p s0 is) /\
  memreqs (trace_of p s0 (is ++ is2)) = memreqs (trace_of p s0 is).
Proof. exact sys_never_both. Qed.
Print Assumptions C16_never_both.

(** Every run can be continued for ever (for every [n]) by a schedule in which
    the sink is ready in every even cycle and memory in every odd one, with no
    response and no memory request ever: a request pending at its start is never
    answered. *)
Theorem C16_no_progress : forall p n s0 is m0 m rq rs, sys_run p s0 is m0 m rq rs ->
  sys_run p s0 (is ++ alternating n) m0 m rq rs /\
  responses (trace_of p s0 (is ++ alternating n)) = responses (trace_of p s0 is) /\
  memreqs (trace_of p s0 (is ++ alternating n)) = memreqs (trace_of p s0 is).
Proof. exact sys_alternating. Qed.
Print Assumptions C16_no_progress.

(** The claim "if each side is ready in every second cycle, every accepted
    request is answered within some bound" is false: one accepted request,
    nothing outstanding at memory, and no bound. *)
Theorem C16_live_refuted : exists p s0 is m, wf_params p /\ sys_run p s0 is mem_a m [] [] /\
  length (accepted (trace_of p s0 is)) = 1%nat /\ responses (trace_of p s0 is) = [] /\
  forall n, sys_run p s0 (is ++ alternating n) mem_a m [] [] /\ responses (trace_of p s0 (is ++ alternating n)) = [].
Proof.
  set (is := is_a px [rd 1 0x10 0] (eager 5)).
  assert (R := run_a px [rd 1 0x10 0] (eager 5) (wf_all px [rd 1 0x10 0] eq_refl)).
  exists px, (s0_a px), is, (fst (end_a px [rd 1 0x10 0] (eager 5))). split; [apply px_wf|].
  change (snd (end_a px [rd 1 0x10 0] (eager 5))) with (@nil mresp) in R. split; [exact R|].
  split; [reflexivity|]. split; [reflexivity|]. intros n.
  destruct (sys_alternating px n _ _ _ _ _ _ R) as (R' & E & _). split; [exact R'|]. fold is in E. rewrite E. reflexivity.
Qed.
Print Assumptions C16_live_refuted.
