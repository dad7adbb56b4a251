(** C48-C50: data do not influence control; caches over arbitrary memories; progress of caches that share memory. *)
From Coq Require Import Arith NArith List Bool Lia.
From Verif Require Import Bits Params Msg Rtl Mem Spec System Traffic MultiSys Hide Obliv SysProofs Facts2 Progress Proto Harness MultiHarness.
Import ListNotations.
Open Scope N_scope.

(** C48.  From any state, with any inputs: if two input sequences differ only in
    the data of requests and in the data (and opaque, length) of memory answers,
    then in every cycle the outputs differ at most in data: the same ready
    signal, the same responses with the same type, opaque, hit flag and length,
    the same memory requests with the same type, opaque, address, length and mask. *)
Theorem C48_data_oblivious : forall p s is is', map hide_in is' = map hide_in is ->
  map hide_out (snd (run p s is')) = map hide_out (snd (run p s is)).
Proof. exact (fun p s is is' H => proj1 (oblivious p is is' s s (ctl_refl s) H)). Qed.
Print Assumptions C48_data_oblivious.

(** Not even what was stored earlier matters: the two runs may have had different
    data in the past and now continue with inputs alike up to data. *)
Theorem C48_past_data : forall p s is is' js js', map hide_in is' = map hide_in is -> map hide_in js' = map hide_in js ->
  map hide_out (snd (run p (fst (run p s is')) js')) = map hide_out (snd (run p (fst (run p s is)) js)).
Proof.
  exact (fun p s is is' js js' H H' => proj1 (oblivious p js js' _ _ (proj2 (oblivious p is is' s s (ctl_refl s) H)) H')).
Qed.
Print Assumptions C48_past_data.

(** Two runs of the same program over memories with different contents, writing
    different data: the inputs agree up to data, the responses' data differ. *)
Definition bump (r : creq) : creq := mkCReq (cq_type r) (cq_opq r) (cq_addr r) (cq_len r) (cq_data r + 1).
Definition is_b : list inp := fst (drive px (s0_a px) (fun a => (a * 7) mod 256) [] (map bump prog_a) (lively 150 0)).
Example C48_example : map hide_in is_b = map hide_in (is_a px prog_a (lively 150 0)) /\
  length (responses (trace_of px (s0_a px) is_b)) = 16%nat /\
  forallb (fun z => fst z =? snd z) (combine (map cr_data (responses (trace_of px (s0_a px) is_b)))
    (map cr_data (responses (trace_of px (s0_a px) (is_a px prog_a (lively 150 0)))))) = false.
Proof. vm_compute. auto. Qed.

(** C49.  A cache over a memory that answers every request once, in order, with
    the right type, and with whatever data (corrupted, changed by others, from a
    different protocol).  Responses come in order and echo type, opaque and length; *)
Theorem C49_in_order_echo : forall p s0 is, wf_params p -> proto_run p s0 is ->
  let tr := trace_of p s0 is in
  exists rest, map (fun r => (cq_type r, cq_opq r, cq_len r)) (accepted tr) =
               map (fun y => (cr_type y, cr_opq y, cr_len y)) (responses tr) ++ rest.
Proof. exact (fun p s0 is W => proto_echo p W s0 is). Qed.
Print Assumptions C49_in_order_echo.

(** the hit flags are those of the LRU tracker; *)
Theorem C49_lru_hits : forall p s0 is, wf_params p -> proto_run p s0 is ->
  let tr := trace_of p s0 is in
  exists rest, lru_tests p lru_empty (accepted tr) = map cr_test (responses tr) ++ rest.
Proof. exact (fun p s0 is W => proto_tests p W s0 is). Qed.
Print Assumptions C49_lru_hits.

(** at most two requests are in flight and at most two memory requests unanswered, one of them not a WRITE; *)
Theorem C49_bounds : forall p s0 is, wf_params p -> proto_run p s0 is ->
  let tr := trace_of p s0 is in
  (length (responses tr) <= length (accepted tr) <= length (responses tr) + 2)%nat /\
  (length (outstanding tr) <= 2)%nat /\ (length (nonwrites (outstanding tr)) <= 1)%nat.
Proof. exact (fun p s0 is W P => conj (proto_inflight p W s0 is P) (proto_outst p W s0 is P)). Qed.
Print Assumptions C49_bounds.

(** memory requests have the documented shapes; *)
Theorem C49_memreq_shape : forall p s0 is, wf_params p -> proto_run p s0 is ->
  let tr := trace_of p s0 is in
  Forall (fun q => ((mq_type q = T_READ \/ mq_type q = T_WRITE /\ mq_mask q <> 0 /\ mq_mask q < 2 ^ (p_clw p / 32)) /\
     mq_addr q mod (p_clw p / 8) = 0 /\ mq_addr q < 2 ^ p_abw p /\ mq_len q = 0) \/
   (exists r, In r (accepted tr) /\ is_amo (mq_type q) = true /\ mq_type q = cq_type r /\ mq_addr q = cq_addr r /\
      mq_opq q = cq_opq r /\ mq_len q = 4)) (memreqs tr).
Proof. exact (fun p s0 is W => proto_shape p W s0 is). Qed.
Print Assumptions C49_memreq_shape.

(** they are, up to data, exactly the evictions, refills, flushes and AMOs of [Traffic.traffic]; *)
Theorem C49_traffic : forall p s0 is m0, wf_params p -> proto_run p s0 is ->
  let tr := trace_of p s0 is in
  exists G, traffic p (fun _ => false) lru_empty m0 (accepted tr) G /\
    (exists rest, map hide_mreq (concat G) = map hide_mreq (memreqs tr) ++ rest) /\
    (exists mid, map hide_mreq (memreqs tr) = map hide_mreq (concat (firstn (length (responses tr)) G)) ++ mid).
Proof. exact (fun p s0 is m0 W => proto_traffic p W s0 is m0). Qed.
Print Assumptions C49_traffic.

(** and every accepted request is answered, as in C15. *)
Theorem C49_progress : forall p is is2 s0, wf_params p -> proto_run p s0 (is ++ is2) ->
  let tr := trace_of p s0 is in
  (2 * N.to_nat (5 * total_lines p + 3) <= productive_cycles tr (trace_of p (fst (run p s0 is)) is2))%nat ->
  (length (accepted tr) <= length (responses (trace_of p s0 (is ++ is2))))%nat.
Proof. exact (fun p is is2 s0 W => proto_progress p W is is2 s0). Qed.
Print Assumptions C49_progress.
Theorem C49_latency : forall p L is is2 s0, wf_params p -> proto_run p s0 (is ++ is2) ->
  let tr := trace_of p s0 is in let tr2 := trace_of p (fst (run p s0 is)) is2 in
  Forall (fun i => i_resp_rdy i && i_mreq_rdy i = true) is2 -> answers_within L tr tr2 ->
  (2 * N.to_nat (5 * total_lines p + 3) * (L + 1) <= length is2)%nat ->
  (length (accepted tr) <= length (responses (trace_of p s0 (is ++ is2))))%nat.
Proof. exact (fun p L is is2 s0 W => proto_progress_latency p W L is is2 s0). Qed.
Print Assumptions C49_latency.

(** A memory that answers every request with garbage. *)
Definition is_j : list inp := map (redata (fun _ => 0xbadbad)) (is_a px prog_a (lively 150 0)).
Example C49_example : proto_run px (s0_a px) is_j /\
  length (responses (trace_of px (s0_a px) is_j)) = 16%nat /\
  nodup N.eq_dec (map mr_data (memresps (trace_of px (s0_a px) is_j))) = [0xbadbad].
Proof.
  split; [|vm_compute; auto].
  apply redata_run. eapply sys_proto. apply run_a. apply wf_all. reflexivity.
Qed.

(** C50.  [n] caches over one memory whose clients may share and race in any way:
    each of them behaves as in C49.  In particular every cache answers what it has
    accepted after as many of its own productive cycles as if it were alone: no
    traffic of the others can block it or livelock it. *)
Theorem C50_any_sharing : forall p z n s0 m0 ts m rq rs i, wf_caches p z n -> clients p z n s0 ts ->
  mmem p n m0 no_reqs no_resps ts m rq rs -> (i < n)%nat ->
  proto_run (sized p z i) (s0 i) (map fst (proj i ts)) /\ trace_of (sized p z i) (s0 i) (map fst (proj i ts)) = proj i ts.
Proof.
  exact (fun p z n s0 m0 ts m rq rs i W C M I => conj (multi_proto p z n s0 m0 ts m rq rs i C M I) (eq_sym (proj1 (proj2 (C i I))))).
Qed.
Print Assumptions C50_any_sharing.

Theorem C50_progress : forall p z n s0 m0 ts1 ts2 m rq rs i, wf_caches p z n -> clients p z n s0 (ts1 ++ ts2) ->
  mmem p n m0 no_reqs no_resps (ts1 ++ ts2) m rq rs -> (i < n)%nat ->
  (2 * N.to_nat (5 * total_lines (sized p z i) + 3) <= productive_cycles (proj i ts1) (proj i ts2))%nat ->
  (length (accepted (proj i ts1)) <= length (responses (proj i (ts1 ++ ts2))))%nat.
Proof. exact (fun p z n s0 m0 ts1 ts2 m rq rs i W => multi_progress p z n W s0 m0 ts1 ts2 m rq rs i). Qed.
Print Assumptions C50_progress.
Theorem C50_latency : forall p z L n s0 m0 ts1 ts2 m rq rs i, wf_caches p z n -> clients p z n s0 (ts1 ++ ts2) ->
  mmem p n m0 no_reqs no_resps (ts1 ++ ts2) m rq rs -> (i < n)%nat ->
  Forall (fun io => i_resp_rdy (fst io) && i_mreq_rdy (fst io) = true) (proj i ts2) -> answers_within L (proj i ts1) (proj i ts2) ->
  (2 * N.to_nat (5 * total_lines (sized p z i) + 3) * (L + 1) <= length ts2)%nat ->
  (length (accepted (proj i ts1)) <= length (responses (proj i (ts1 ++ ts2))))%nat.
Proof. exact (fun p z L n s0 m0 ts1 ts2 m rq rs i W => multi_latency p z n W L s0 m0 ts1 ts2 m rq rs i). Qed.
Print Assumptions C50_latency.

(** Two caches of different size and associativity, both writing and reading the same words with no ownership: run of
    200 cycles; after the first 20, both have accepted requests, and the rest has
    enough productive cycles for both. *)
Definition prog_r0 : list creq := [ wt 1 0x10 0 0x11; rd 2 0x14 0; wt 3 0x14 0 0x22; mkCReq T_AMO_OR 4 0x10 0 8; rd 5 0x14 0 ].
Definition prog_r1 : list creq := [ wt 1 0x10 0 0x99; rd 2 0x14 0; wt 3 0x14 0 0x88; mkCReq T_FLUSH 4 0 0 0; rd 5 0x10 0 ].
Definition ts_r : list cyc := map two (fst (mdrive px z_m sm sm1 mem_a [] [] prog_r0 prog_r1 (combine (lively 200 0) (lively 200 1)))).
Example C50_example : wf_caches px z_m 2 /\ clients px z_m 2 st_m ts_r /\ (exists m rq rs, mmem px 2 mem_a no_reqs no_resps ts_r m rq rs) /\
  map (fun i => length (accepted (proj i (firstn 20 ts_r)))) [0; 1]%nat = [4; 4]%nat /\
  map (fun i => length (responses (proj i ts_r))) [0; 1]%nat = [5; 5]%nat /\
  forallb (fun i => Nat.leb (2 * N.to_nat (5 * total_lines (sized px z_m i) + 3)) (productive_cycles (proj i (firstn 20 ts_r)) (proj i (skipn 20 ts_r)))) [0; 1]%nat = true.
Proof.
  destruct (mdrive_racy px z_m sm sm1 mem_a prog_r0 prog_r1 (combine (lively 200 0) (lively 200 1))) as (C & rq & rs & M);
    try apply mk_reset_ok; try (apply wf_all; reflexivity).
  split; [exact z_m_wf|]. split; [exact C|]. split; [exists (snd (mdrive px z_m sm sm1 mem_a [] [] prog_r0 prog_r1 (combine (lively 200 0) (lively 200 1)))), rq, rs; exact M|].
  vm_compute. auto.
Qed.
