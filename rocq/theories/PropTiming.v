(** C38, C41: the timing of hits. *)
From Coq Require Import NArith List Bool Lia.
From Verif Require Import Bits Params Msg Rtl Mem Spec System Traffic SysProofs SysFacts Facts1 Latency Harness.
Import ListNotations.
Open Scope N_scope.

(** C38.  A READ or WRITE [r] is accepted (in the cycle with inputs [i0]) whose
    line is resident, and in the two following cycles memory and sink are ready.
    Then the second of them carries the response, neither makes a memory request,
    and the cache is ready for another request already in the first of them iff
    [r] is a READ or every word it writes is already dirty (written and not
    written back since, see [C09_pending_meaning]).  Otherwise (a WRITE to a clean
    word) it is not ready in that one cycle, and ready again in the next. *)
Theorem C38_hit_timing : forall p s0 is i0 i1 i2 m0 m rq rs, wf_params p ->
  sys_run p s0 (is ++ [i0; i1; i2]) m0 m rq rs ->
  let A := accepted (trace_of p s0 is) in let r := i_req i0 in
  i_req_en i0 = true -> rw_req r = true ->
  In (line_of p (cq_addr r)) (lru_run p lru_empty A (line_of p (cq_addr r) mod nblocks p)) ->
  i_resp_rdy i1 = true -> i_mreq_rdy i1 = true -> i_resp_rdy i2 = true -> i_mreq_rdy i2 = true ->
  let o1 := output p (fst (run p s0 (is ++ [i0]))) i1 in
  let o2 := output p (fst (run p s0 (is ++ [i0; i1]))) i2 in
  o_mreq o1 = None /\ o_mreq o2 = None /\
  (exists y, o_resp o2 = Some y /\ cr_type y = cq_type r /\ cr_opq y = cq_opq r /\ cr_len y = cq_len r /\ cr_test y = 1) /\
  (exists G, traffic p (fun _ => false) lru_empty m0 A G /\ concat G = memreqs (trace_of p s0 is) /\
     (o_req_rdy o1 = true <-> cq_type r = T_READ \/
        forall k, word_num (cq_addr r) <= k <= word_num (cq_addr r + req_bytes p r - 1) ->
                  pend_run p (fun _ => false) A G k = true)) /\
  (i_req_en i1 = false -> o_req_rdy o2 = true).
Proof. exact (fun p s0 is i0 i1 i2 m0 m rq rs W => hit_latency p W s0 is i0 i1 i2 m0 m rq rs). Qed.
Print Assumptions C38_hit_timing.

(** A line is read (a miss); then a READ hit, a WRITE hit on a clean word, a WRITE
    hit on the same, now dirty, word, and a READ hit; the source always offers the
    next request.  The cycles in which requests are accepted and in which the hits
    are answered. *)
Definition prog_h : list creq := [ rd 1 0x10 0; rd 2 0x14 0; wt 3 0x14 0 5; wt 4 0x14 0 6; rd 5 0x14 0 ].
Example C38_example : let is := is_a px prog_h (eager 24) in let tr := trace_of px (s0_a px) is in
  sys_run px (s0_a px) is mem_a (fst (end_a px prog_h (eager 24))) [] (snd (end_a px prog_h (eager 24))) /\
  map fst (filter (fun x => snd x) (combine (seq 0 24) (map i_req_en is))) = [4; 10; 11; 13; 14]%nat /\
  map fst (filter (fun x => match snd x with Some _ => true | None => false end)
                  (combine (seq 0 24) (map (fun io => o_resp (snd io)) tr))) = [11; 12; 13; 15; 16]%nat.
Proof.
  split; [apply run_a; apply wf_all; reflexivity|]. vm_compute. auto.
Qed.

(** C41.  [is2] are cycles in which READs are accepted one after the other, all of
    resident lines; memory and sink are ready in those and in the two following
    cycles [js].  Then in the cycle after each of them the cache is ready again, and
    the cycle after that carries its response, a hit; no memory request is made. *)
Theorem C41_hit_throughput : forall p s0 is is2 js m0 m rq rs, wf_params p ->
  sys_run p s0 (is ++ is2 ++ js) m0 m rq rs ->
  let A := accepted (trace_of p s0 is) in
  Forall (fun i => i_resp_rdy i && i_mreq_rdy i = true) (is2 ++ js) ->
  Forall (fun i => i_req_en i = true /\ cq_type (i_req i) = T_READ /\
            In (line_of p (cq_addr (i_req i))) (lru_run p lru_empty A (line_of p (cq_addr (i_req i)) mod nblocks p))) is2 ->
  length js = 2%nat ->
  let outs := map snd (trace_of p (fst (run p s0 is)) (is2 ++ js)) in
  forall k i, nth_error is2 k = Some i -> exists o1 o2 y,
     nth_error outs (k + 1) = Some o1 /\ nth_error outs (k + 2) = Some o2 /\
     o_req_rdy o1 = true /\ o_mreq o1 = None /\ o_mreq o2 = None /\ o_resp o2 = Some y /\
       cr_type y = T_READ /\ cr_opq y = cq_opq (i_req i) /\ cr_len y = cq_len (i_req i) /\ cr_test y = 1.
Proof. exact (fun p s0 is is2 js m0 m rq rs W => hit_stream p W s0 is is2 js m0 m rq rs). Qed.
Print Assumptions C41_hit_throughput.

(** Two lines are loaded, then six READ hits in consecutive cycles. *)
Definition prog_s : list creq :=
  [ rd 1 0x10 0; rd 2 0x20 0; rd 3 0x14 0; rd 4 0x20 1; rd 5 0x10 0; rd 6 0x1c 2; rd 7 0x24 0; rd 8 0x10 0 ].
Example C41_example : let all := is_a px prog_s (eager 24) in
  let is := firstn 16 all in let is2 := firstn 6 (skipn 16 all) in let js := skipn 22 all in
  sys_run px (s0_a px) (is ++ is2 ++ js) mem_a (fst (end_a px prog_s (eager 24))) [] (snd (end_a px prog_s (eager 24))) /\
  length js = 2%nat /\ map i_req_en is2 = repeat true 6 /\
  map (fun i => line_of px (cq_addr (i_req i))) is2 = [1; 2; 1; 1; 2; 1] /\
  lru_run px lru_empty (accepted (trace_of px (s0_a px) is)) 1 = [1] /\
  lru_run px lru_empty (accepted (trace_of px (s0_a px) is)) 0 = [2].
Proof.
  split.
  - replace (firstn 16 (is_a px prog_s (eager 24)) ++ firstn 6 (skipn 16 (is_a px prog_s (eager 24))) ++ skipn 22 (is_a px prog_s (eager 24)))
      with (is_a px prog_s (eager 24)).
    + apply run_a. apply wf_all. reflexivity.
    + vm_compute. reflexivity.
  - vm_compute. auto 10.
Qed.
