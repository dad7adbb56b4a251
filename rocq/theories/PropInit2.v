(** C71: WRITE_INIT does not block a cache with one way. *)
From Coq Require Import Arith NArith List Bool Lia.
From Verif Require Import Bits Params Msg Rtl Mem Spec System Traffic Hide Harness FlModel ConformData Conform Directed InitSpec Init3 Init5 Init6 PropInit LiveSpec.
Import ListNotations.
Open Scope N_scope.

(** C71.  Clients that mix WRITE_INITs with any other requests; memory answers each
    request once, in order, with the right type (and any data).  As without WRITE_INIT
    (C15): whatever has been accepted by some point is answered by the time the run has had
    [2 * (5 * lines + 3)] productive cycles after it, whatever happens in the other cycles. *)
Theorem C71_init_progress : forall p is is2 s0, wf_params p -> p_assoc p = 1 -> init_run p s0 (is ++ is2) ->
  let tr := trace_of p s0 is in
  (2 * N.to_nat (5 * total_lines p + 3) <= productive_cycles tr (trace_of p (fst (run p s0 is)) is2))%nat ->
  (length (accepted tr) <= length (responses (trace_of p s0 (is ++ is2))))%nat.
Proof. exact (fun p is is2 s0 W A1 => ini_progress p W A1 is is2 s0). Qed.
Print Assumptions C71_init_progress.

(** With both sides always ready and a memory of latency at most [L], in cycles. *)
Theorem C71_init_latency : forall p L is is2 s0, wf_params p -> p_assoc p = 1 -> init_run p s0 (is ++ is2) ->
  let tr := trace_of p s0 is in let tr2 := trace_of p (fst (run p s0 is)) is2 in
  Forall (fun i => i_resp_rdy i && i_mreq_rdy i = true) is2 -> answers_within L tr tr2 ->
  (2 * N.to_nat (5 * total_lines p + 3) * (L + 1) <= length is2)%nat ->
  (length (accepted tr) <= length (responses (trace_of p s0 (is ++ is2))))%nat.
Proof. exact (fun p L is is2 s0 W A1 => ini_progress_latency p W A1 L is is2 s0). Qed.
Print Assumptions C71_init_latency.

(** At most two requests are unanswered at any time, and at most two memory requests. *)
Theorem C71_init_in_flight : forall p s0 is, wf_params p -> p_assoc p = 1 -> init_run p s0 is ->
  let tr := trace_of p s0 is in
  (length (responses tr) <= length (accepted tr) <= length (responses tr) + 2)%nat /\ (length (outstanding tr) <= 2)%nat.
Proof. exact (fun p s0 is W A1 R => conj (ini_inflight p W A1 s0 is R) (ini_outst p W A1 s0 is R)). Qed.
Print Assumptions C71_init_in_flight.

(** After enough productive cycles in which the client sends nothing, the cache is ready
    for a request whenever both of its sides are. *)
Theorem C71_init_ready_again : forall p is is2 i s0, wf_params p -> p_assoc p = 1 -> init_run p s0 (is ++ is2) ->
  accepted (trace_of p (fst (run p s0 is)) is2) = [] ->
  (2 * N.to_nat (5 * total_lines p + 3) <= productive_cycles (trace_of p s0 is) (trace_of p (fst (run p s0 is)) is2))%nat ->
  i_resp_rdy i && i_mreq_rdy i = true ->
  o_req_rdy (output p (fst (run p s0 (is ++ is2))) i) = true.
Proof. exact (fun p is is2 i s0 W A1 => ini_ready p W A1 is is2 i s0). Qed.
Print Assumptions C71_init_ready_again.

(** So a client that does not decline to send gets all its requests accepted and answered. *)
Theorem C71_init_program_finishes : forall p total is is2 s0, wf_params p -> p_assoc p = 1 -> init_run p s0 (is ++ is2) ->
  (total * (2 * N.to_nat (5 * total_lines p + 3) + 1) <= offer_cycles total [] (trace_of p s0 is))%nat ->
  (2 * N.to_nat (5 * total_lines p + 3) <= productive_cycles (trace_of p s0 is) (trace_of p (fst (run p s0 is)) is2))%nat ->
  (total <= length (responses (trace_of p s0 (is ++ is2))))%nat.
Proof. exact (fun p total is is2 s0 W A1 => ini_completes p W A1 total is is2 s0). Qed.
Print Assumptions C71_init_program_finishes.

(** The directed tests with WRITE_INIT end, with exactly the responses written in the test. *)
Theorem C71_init_tests_finish : forall t, In t all_tests -> p_assoc (t_p t) = 1 -> In T_INIT (map (fun x => cq_type (fst x)) (t_msgs t)) ->
  let p := t_p t in let total := length (t_msgs t) in
  forall s0 is is2, init_run p s0 (is ++ is2) ->
  (exists rest, map fst (t_msgs t) = accepted (trace_of p s0 (is ++ is2)) ++ rest) ->
  (total * (2 * N.to_nat (5 * total_lines p + 3) + 1) <= offer_cycles total [] (trace_of p s0 is))%nat ->
  (2 * N.to_nat (5 * total_lines p + 3) <= productive_cycles (trace_of p s0 is) (trace_of p (fst (run p s0 is)) is2))%nat ->
  responses (trace_of p s0 (is ++ is2)) = map snd (t_msgs t).
Proof. exact init_tests_finish. Qed.
Print Assumptions C71_init_tests_finish.

(** A slow run of [prog_k] (C70): after 60 cycles a request is accepted and not answered. *)
Definition is_l : list inp := is_a px1 prog_k (lively 130 0).
Example C71_example : let is := firstn 60 is_l in let is2 := skipn 60 is_l in let tr := trace_of px1 (s0_a px1) is in
  init_run px1 (s0_a px1) (is ++ is2) /\ length (accepted tr) = 20%nat /\ length (responses tr) = 19%nat /\
  (2 * N.to_nat (5 * total_lines px1 + 3) <= productive_cycles tr (trace_of px1 (fst (run px1 (s0_a px1) is)) is2))%nat.
Proof.
  cbv zeta. split; [rewrite firstn_skipn; apply prog_k_ok; [apply okI_ok; vm_compute; reflexivity | vm_compute; reflexivity]|].
  split; [vm_compute; reflexivity|]. split; [vm_compute; reflexivity|]. apply Nat.leb_le. vm_compute. reflexivity.
Qed.
(** The bounds of the last theorem are met by a run of one of the tests; the WRITE_INITs are answered like all others. *)
Definition is_t : list inp := fst (drive (t_p t_i) s_i (load_words (t_mem t_i)) [] (map fst (t_msgs t_i)) (eager 270)).
Example C71_tests_example : let p := t_p t_i in let is := firstn 243 is_t in let is2 := skipn 243 is_t in
  In t_i init_tests /\ init_run p s_i (is ++ is2) /\ accepted (trace_of p s_i (is ++ is2)) = map fst (t_msgs t_i) /\
  (length (t_msgs t_i) * (2 * N.to_nat (5 * total_lines p + 3) + 1) <= offer_cycles (length (t_msgs t_i)) [] (trace_of p s_i is))%nat /\
  (2 * N.to_nat (5 * total_lines p + 3) <= productive_cycles (trace_of p s_i is) (trace_of p (fst (run p s_i is)) is2))%nat.
Proof.
  cbv zeta. split; [unfold t_i; apply nth_In; vm_compute; repeat constructor|]. rewrite firstn_skipn.
  assert (F : forallb (okI (t_p t_i)) (map fst (t_msgs t_i)) = true) by (vm_compute; reflexivity).
  split.
  { split; [apply mk_reset_ok|]. split; [|apply typedb_run; vm_compute; reflexivity].
    exact (proj1 (drive_gen _ (t_p t_i) (eager 270) s_i (load_words (t_mem t_i)) [] _ (okI_ok _ _ F))). }
  split; [vm_compute; reflexivity|]. split; apply Nat.leb_le; vm_compute; reflexivity.
Qed.
