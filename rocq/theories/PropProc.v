(** C35, C40: the test bench around the cache (test/ProcModel.py, test/MulticoreModel.py). *)
From Coq Require Import NArith List Bool Lia.
From Verif Require Import Bits Params Msg Rtl Mem Spec System SysProofs SysFacts Procs Multicore Harness.
Import ListNotations.
Open Scope N_scope.

(** C35.  The processor model's 2-bit in-flight counter, driven by the ports of
    the cache, always equals accepted minus answered requests and never passes 2,
    so it never wraps. *)
Theorem C35_counter : forall p is s0 m0 m rq rs, wf_params p -> sys_run p s0 is m0 m rq rs ->
  let tr := trace_of p s0 is in
  N.of_nat (length (accepted tr)) = N.of_nat (length (responses tr)) + flight tr /\ flight tr <= 2.
Proof. exact (fun p is s0 m0 m rq rs W => sys_flight p W is s0 m0 m rq rs). Qed.
Print Assumptions C35_counter.

(** While nothing is in flight, the cache's outputs (its request ready among
    them) and its next state do not depend on the response ready input. *)
Theorem C35_idle_ignores_ready : forall p s0 is m0 m rq rs i b, wf_params p -> sys_run p s0 is m0 m rq rs ->
  length (accepted (trace_of p s0 is)) = length (responses (trace_of p s0 is)) ->
  let s := fst (run p s0 is) in
  output p s (with_rdy i b) = output p s i /\ next p s (with_rdy i b) = next p s i.
Proof. exact (fun p s0 is m0 m rq rs i b W => sys_quiet_rdy p W s0 is m0 m rq rs i b). Qed.
Print Assumptions C35_idle_ignores_ready.

(** So in every cycle, whatever the inputs [i] and the processor side's ready [b],
    the combinational loop has exactly one consistent value [x] for the response
    ready wire, and with it the cache does just what it would have done with [b]
    wired through. *)
Theorem C35_loop : forall p s0 is m0 m rq rs i b, wf_params p -> sys_run p s0 is m0 m rq rs ->
  let s := fst (run p s0 is) in let c := flight (trace_of p s0 is) in
  (exists x, loop_ok p s c b (with_rdy i x) /\ (forall y, loop_ok p s c b (with_rdy i y) -> y = x)) /\
  (forall x, loop_ok p s c b (with_rdy i x) ->
     output p s (with_rdy i x) = output p s (with_rdy i b) /\ next p s (with_rdy i x) = next p s (with_rdy i b)).
Proof. exact (fun p s0 is m0 m rq rs i b W => sys_flight_rdy p W s0 is m0 m rq rs i b). Qed.
Print Assumptions C35_loop.

(** The wrapper is transparent: a run behind it gives the same outputs and states
    as the run with the processor's ready [bs] wired straight to the cache; and every
    straight run is one behind the wrapper. *)
Theorem C35_transparent : forall p is bs s0 m0 m rq rs, wf_params p -> sys_run p s0 is m0 m rq rs ->
  wrapped p s0 0 is bs -> run p s0 is = run p s0 (direct is bs).
Proof. exact (fun p is bs s0 m0 m rq rs W => wrapped_direct p W is bs s0 m0 m rq rs). Qed.
Print Assumptions C35_transparent.
Theorem C35_complete : forall p is s0 m0 m rq rs, wf_params p -> sys_run p s0 is m0 m rq rs ->
  exists is', direct is' (map i_resp_rdy is) = is /\ wrapped p s0 0 is' (map i_resp_rdy is) /\
    sys_run p s0 is' m0 m rq rs.
Proof. exact (fun p is s0 m0 m rq rs W => wrapped_exists p W is s0 m0 m rq rs). Qed.
Print Assumptions C35_complete.

(** A run in which the wrapper really changes the wire: in the first cycle the
    processor side is ready, the cache is not, so cache.resp.rdy is low; the
    counter goes through 0, 1 and 2. *)
Example C35_example : let is := is_a px prog_a (lively 40 0) in
  sys_run px (s0_a px) is mem_a (fst (end_a px prog_a (lively 40 0))) [] (snd (end_a px prog_a (lively 40 0))) /\
  map (fun k => flight (trace_of px (s0_a px) (firstn k is))) [3; 7; 12]%nat = [0; 1; 2] /\
  (exists i0 r, is = i0 :: r /\ i_resp_rdy i0 = true /\ o_req_rdy (output px (s0_a px) i0) = false /\
     loop_ok px (s0_a px) 0 true (with_rdy i0 false)).
Proof.
  split; [exact (run_a px prog_a (lively 40 0) prog_a_wf)|].
  split; [vm_compute; reflexivity|]. 
  set (is := is_a px prog_a (lively 40 0)). exists (hd (mkInp false creq0 false false false mresp0) is), (tl is).
  vm_compute. auto.
Qed.

(** C40.  [t] lists the transactions of a test: cache number and order; [n]
    caches.  After any number of cycles [xs], in which no cache answered more than
    it had been sent: if the driver now releases to cache [i] a transaction of order
    [k], then every transaction of every cache [i'] (the [j]-th of its list) of
    smaller order has been answered. *)
Theorem C40_order_barrier : forall n t xs x i k, txs_ok n t -> caches_ok n t xs ->
  mc_sends t (mc_run n t xs) x i = Some k ->
  forall i' j k', nth_error (src_of t i') j = Some k' -> k' < k -> (j < answers i' xs)%nat.
Proof. exact (fun n t xs x i k OK => order_barrier n t OK xs x i k). Qed.
Print Assumptions C40_order_barrier.

(** Two caches, orders 0, 0, 1, 3: cache 1's order-1 request goes out in the
    cycle after both order-0 requests are answered and order 1 has begun. *)
Definition t_ex : txs := [(0%nat, 0); (1%nat, 0); (1%nat, 1); (0%nat, 3)].
Definition x_ex (a b : bool) : mc_in :=
  mkMi (fun _ => true) (fun _ => true) (fun i => match i with 0%nat => a | 1%nat => b | _ => false end).
Definition xs_ex : list mc_in := [x_ex false false; x_ex true false; x_ex false true; x_ex false false].
Example C40_example : txs_ok 2 t_ex /\ caches_ok 2 t_ex xs_ex /\
  mc_sends t_ex (mc_run 2 t_ex xs_ex) (x_ex false false) 1 = Some 1 /\
  mc_sends t_ex (mc_run 2 t_ex (firstn 3 xs_ex)) (x_ex false false) 1 = None /\
  map (fun i => mc_sent (mc_run 2 t_ex xs_ex) i) [0; 1]%nat = [1; 1]%nat.
Proof.
  split.
  { split; [|vm_compute; reflexivity]. repeat constructor. }
  split; [|vm_compute; auto].
  intros a x b E i. 
  destruct a as [|a1 [|a2 [|a3 [|a4 a]]]]; cbn [app] in E; inversion E; subst; try (destruct a; discriminate);
    (split; [destruct i as [|[|i]]; vm_compute; intros; try discriminate; auto|]);
    destruct i as [|[|i]]; vm_compute; auto 10.
Qed.
