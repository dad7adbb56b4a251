(** C10-C13, C17: protocol, blocking, bounded outstanding requests, captured
    responses, initialisation. *)
From Coq Require Import NArith List Bool Lia.
From Verif Require Import Bits Params Msg Rtl Mem Spec System SysProofs SysFacts Facts1 Facts2 Harness.
Import ListNotations.
Open Scope N_scope.

(** C10.  In every state (reachable or not) and for every input: a memory
    request is sent only if memory is ready, a response only if the sink is ready,
    and never both in one cycle.  ([memresp_rdy] is tied to 1 in the code,
    Ctrl 119: the model has no such output.) *)
Theorem C10_en_rdy : forall p s i, let o := output p s i in
  (o_mreq o <> None -> i_mreq_rdy i = true) /\ (o_resp o <> None -> i_resp_rdy i = true) /\
  (o_mreq o = None \/ o_resp o = None).
Proof. exact out_protocol. Qed.
Print Assumptions C10_en_rdy.

(** Both kinds of output do occur. *)
Example C10_example : exists s0 is m rq rs, sys_run px s0 is mem_a m rq rs /\
  length (memreqs (trace_of px s0 is)) = 6%nat /\ length (responses (trace_of px s0 is)) = 8%nat.
Proof.
  do 5 eexists. split; [exact (run_a px prog_a (lively 49 0) prog_a_wf)|]. vm_compute. auto.
Qed.

(** C11.  At most two accepted requests are unanswered; when the cache says
    ready nothing is outstanding at memory, no memory request is sent in that
    cycle, and none is sent later until another request is accepted: whatever was
    being served needs nothing more from memory. *)
Theorem C11_in_flight : forall p s0 is m0 m rq rs, wf_params p -> sys_run p s0 is m0 m rq rs ->
  let tr := trace_of p s0 is in
  (length (responses tr) <= length (accepted tr) <= length (responses tr) + 2)%nat.
Proof. exact (fun p s0 is m0 m rq rs W => sys_inflight p W s0 is m0 m rq rs). Qed.
Print Assumptions C11_in_flight.
Theorem C11_ready_means_served : forall p s0 is i is2 m0 m rq rs, wf_params p ->
  sys_run p s0 (is ++ i :: is2) m0 m rq rs -> let s := fst (run p s0 is) in
  o_req_rdy (output p s i) = true -> accepted (trace_of p s (i :: is2)) = [] ->
  outstanding (trace_of p s0 (is ++ [i])) = [] /\ memreqs (trace_of p s (i :: is2)) = [].
Proof. exact (fun p s0 is i is2 m0 m rq rs W => sys_ready_all p W s0 is i is2 m0 m rq rs). Qed.
Print Assumptions C11_ready_means_served.
(** The same when a request is accepted in that very cycle. *)
Theorem C11_ready_quiet : forall p s0 is i m0 m rq rs, wf_params p -> sys_run p s0 (is ++ [i]) m0 m rq rs ->
  o_req_rdy (output p (fst (run p s0 is)) i) = true ->
  outstanding (trace_of p s0 (is ++ [i])) = [] /\ o_mreq (output p (fst (run p s0 is)) i) = None.
Proof. exact (fun p s0 is i m0 m rq rs W => sys_ready p W s0 is i m0 m rq rs). Qed.
Print Assumptions C11_ready_quiet.

(** Two requests really can be in flight. *)
Example C11_example : exists s0 is m rq rs, sys_run px s0 is mem_a m rq rs /\
  length (accepted (trace_of px s0 is)) = 3%nat /\ length (responses (trace_of px s0 is)) = 1%nat.
Proof.
  do 5 eexists. split; [exact (run_a px prog_a (lively 14 0) prog_a_wf)|]. vm_compute. auto.
Qed.

(** C12.  At most two memory requests are outstanding, at most one of them not
    a WRITE, and only one during a FLUSH. *)
Theorem C12_outstanding : forall p s0 is m0 m rq rs, wf_params p -> sys_run p s0 is m0 m rq rs ->
  let tr := trace_of p s0 is in
  (length (outstanding tr) <= 2)%nat /\
  (length (filter (fun q => negb (mq_type q =? T_WRITE)) (outstanding tr)) <= 1)%nat /\
  (forall A r, accepted tr = A ++ [r] -> cq_type r = T_FLUSH -> (length (outstanding tr) <= 1)%nat).
Proof. exact (fun p s0 is m0 m rq rs W => sys_outst p W s0 is m0 m rq rs). Qed.
Print Assumptions C12_outstanding.

(** The bound is reached: write-back and refill outstanding together. *)
Example C12_example : exists s0 is m rq rs, sys_run px s0 is mem_a m rq rs /\
  map mq_type (outstanding (trace_of px s0 is)) = [T_WRITE; T_READ].
Proof.
  do 5 eexists. split; [exact (run_a px prog_a (lively 24 0 ++ repeat (mkCh true true true false) 8) prog_a_wf)|]. vm_compute. auto.
Qed.

(** C13.  A memory response delivered in any cycle is captured in the cache's
    input register at the end of that cycle, unless it is the acknowledgement of
    a WRITE and the request being served is not a FLUSH. *)
Theorem C13_response_captured : forall p s0 is i m0 m rq rs, wf_params p ->
  sys_run p s0 (is ++ [i]) m0 m rq rs -> i_mresp_en i = true -> let s := fst (run p s0 is) in
  (mrv (next p s i) = true /\ mrm (next p s i) = i_mresp i) \/
  (mr_type (i_mresp i) = T_WRITE /\
   exists A r, accepted (trace_of p s0 is) = A ++ [r] /\ cq_type r <> T_FLUSH).
Proof. exact (fun p s0 is i m0 m rq rs W => sys_drop p W s0 is i m0 m rq rs). Qed.
Print Assumptions C13_response_captured.

(** Both cases happen: the refill in cycle 8 is captured, the write
    acknowledgement in cycle 27 arrives in a stalled cycle and is dropped. *)
Example C13_example :
  (let is := is_a px prog_a (lively 9 0) in let s := fst (run px (s0_a px) (removelast is)) in
   let i := last is (mkInp false creq0 false false false mresp0) in
   i_mresp_en i = true /\ mr_type (i_mresp i) = T_READ /\ mrv (next px s i) = true) /\
  (let is := is_a px prog_a (lively 28 0) in let s := fst (run px (s0_a px) (removelast is)) in
   let i := last is (mkInp false creq0 false false false mresp0) in
   i_mresp_en i = true /\ mr_type (i_mresp i) = T_WRITE /\ mrv (next px s i) = false).
Proof. vm_compute. auto 10. Qed.

(** C17.  For the first [total_lines] cycles the cache refuses requests and sends
    nothing; then, nothing having been accepted, it is ready whatever the inputs and
    every tag entry is invalid and clean, whatever the SRAMs held at power-up. *)
Theorem C17_init_refuses : forall p s0 is m0 m rq rs, wf_params p -> sys_run p s0 is m0 m rq rs ->
  N.of_nat (length is) < total_lines p -> let tr := trace_of p s0 is in
  accepted tr = [] /\ responses tr = [] /\ memreqs tr = [] /\
  forall i, o_req_rdy (output p (fst (run p s0 is)) i) = false.
Proof. exact (fun p s0 is m0 m rq rs W => sys_init p W s0 is m0 m rq rs). Qed.
Print Assumptions C17_init_refuses.
Theorem C17_init_done : forall p s0 is m0 m rq rs, wf_params p -> sys_run p s0 is m0 m rq rs ->
  N.of_nat (length is) = total_lines p -> let s := fst (run p s0 is) in
  (forall i, o_req_rdy (output p s i) = true) /\
  (forall w j, w < p_assoc p -> j < nblocks p -> te_val p (tram s w j) = false /\ te_dty p (tram s w j) = 0).
Proof. exact (fun p s0 is m0 m rq rs W => sys_init_done p W s0 is m0 m rq rs). Qed.
Print Assumptions C17_init_done.

Example C17_example : exists s0 is m rq rs, sys_run px s0 is mem_a m rq rs /\
  N.of_nat (length is) = total_lines px /\ te_val px (tram s0 1 1) = true.
Proof.
  do 5 eexists. split; [exact (drive_sys px (lively 4 0) (fun _ _ => 2 ^ tagarrw px - 1) junk_d mem_a prog_a prog_a_wf)|].
  vm_compute. auto.
Qed.
