(** C62: the schedule of a program, to the cycle. *)
From Coq Require Import Arith NArith List Bool Lia.
From Verif Require Import Bits Params Msg Rtl Mem Spec System Traffic Hide Harness Proto TimeSpec ExactSpec Service ScheduleSpec Schedule Schedule2 PropExact.
Import ListNotations.
Open Scope N_scope.

(** C62.  If nobody makes the cache wait, requests are accepted and answered exactly in the cycles
    computed from the program (types, addresses and lengths of its requests); as long as there
    are requests left, the next one is not overdue. *)
Theorem C62_schedule : forall p total s0 is, wf_params p -> proto_run p s0 is ->
  let tr := trace_of p s0 is in no_waiting total [] tr = true -> (length (accepted tr) <= total)%nat ->
  accept_cycles tr = starts p (accepted tr) /\
  answer_cycles tr = filter (fun t => Nat.ltb t (length is)) (ends p (accepted tr)) /\
  ((length (accepted tr) < total)%nat -> (length is <= next_start p (accepted tr))%nat).
Proof.
  exact (fun p total s0 is W P NW LT => match schedule p W total is s0 P NW LT with conj a b => conj a (conj (answers p W total is s0 P NW LT) b) end).
Qed.
Print Assumptions C62_schedule.

(** Whatever the delays of the memory: after a request is accepted (in cycle [i]), both sides being
    ready and nothing else accepted, the cache is ready again after [gap] cycles in which
    memory did not make it wait, not earlier and not later ... *)
Theorem C62_ready_again : forall p is2 is i j s0, wf_params p -> proto_run p s0 ((is ++ [i]) ++ is2) -> i_req_en i = true ->
  Forall (fun j => i_resp_rdy j && i_mreq_rdy j = true) is2 -> i_resp_rdy j && i_mreq_rdy j = true ->
  let tr1 := trace_of p s0 (is ++ [i]) in let s1 := fst (run p s0 (is ++ [i])) in let tr2 := trace_of p s1 is2 in
  accepted tr2 = [] ->
  o_req_rdy (output p (fst (run p s1 is2)) j) = true <->
  (gap p (x_after p x_empty (accepted (trace_of p s0 is))) (i_req i) <= productive_cycles tr1 tr2 + 1)%nat.
Proof. exact (fun p is2 is i j s0 W => proto_ready_iff p W is2 is i j s0). Qed.
Print Assumptions C62_ready_again.

(** ... and it is answered after its service time, not earlier and not later. *)
Theorem C62_answered : forall p is2 is i s0, wf_params p -> proto_run p s0 ((is ++ [i]) ++ is2) -> i_req_en i = true ->
  Forall (fun j => i_resp_rdy j && i_mreq_rdy j = true) is2 ->
  let tr1 := trace_of p s0 (is ++ [i]) in let s1 := fst (run p s0 (is ++ [i])) in let tr2 := trace_of p s1 is2 in
  (length (accepted tr1) <= length (responses (tr1 ++ tr2)))%nat <->
  (service p (i_req i) (made p (x_after p x_empty (accepted (trace_of p s0 is))) (i_req i)) <= productive_cycles tr1 tr2)%nat.
Proof. exact (fun p is2 is i s0 W => proto_answered_iff p W is2 is i s0). Qed.
Print Assumptions C62_answered.

(** READ miss, a WRITE hit to a new word, the same word again, READ, WRITE miss with write-back, AMO, INV, FLUSH. *)
Definition prog_s : list creq :=
  [rd 1 0x10 0; wt 2 0x14 0 1; wt 3 0x14 0 2; rd 4 0x14 0; wt 5 0x50 0 3; rd 6 0x90 0; mkCReq T_AMO_ADD 7 0x50 0 1; wt 8 0x98 0 4; mkCReq T_INV 9 0 0 0; mkCReq T_FLUSH 10 0 0 0; rd 11 0x20 0].
Definition is_s : list inp := is_a px prog_s (eager 120).
Example C62_example : proto_run px (s0_a px) is_s /\
  let tr := trace_of px (s0_a px) is_s in
  no_waiting 11 [] tr = true /\ accepted tr = prog_s /\
  accept_cycles tr = [4; 10; 12; 13; 14; 20; 27; 33; 35; 41; 51]%nat /\
  answer_cycles tr = [11; 12; 14; 15; 21; 28; 34; 35; 42; 52; 58]%nat /\
  starts px prog_s = accept_cycles tr /\ ends px prog_s = answer_cycles tr.
Proof.
  assert (WF : Forall (wf_req px) prog_s) by (apply wf_all; vm_compute; auto).
  split; [eapply sys_proto; eauto using px_wf, run_a|].
  vm_compute. repeat split; reflexivity.
Qed.
(** The time until the cache is ready again. *)
Example C62_example_gap : gap px (x_after px x_empty [rd 1 0x10 0]) (wt 2 0x14 0 1) = 2%nat /\
  gap px (x_after px x_empty [rd 1 0x10 0; wt 2 0x14 0 1]) (wt 3 0x14 0 2) = 1%nat /\
  gap px x_empty (rd 1 0x10 0) = 6%nat /\ gap px x_empty (mkCReq T_INV 9 0 0 0) = 6%nat.
Proof. vm_compute. auto. Qed.
