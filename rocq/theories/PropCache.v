(** C03-C06, C08, C09, C18, C19, C42: hits, lines and memory traffic. *)
From Coq Require Import NArith List Bool Lia.
From Verif Require Import Bits Params Msg Units Rtl Mem Spec System Traffic SysProofs SysFacts Facts1 Facts2 Facts3 Facts4 Harness.
Import ListNotations.
Open Scope N_scope.

(** C03.  The hit flags sent so far are a prefix of those of a true-LRU tracker
    fed with the accepted requests. *)
Theorem C03_lru_hits : forall p s0 is m0 m rq rs, wf_params p -> sys_run p s0 is m0 m rq rs ->
  let tr := trace_of p s0 is in
  exists rest, lru_tests p lru_empty (accepted tr) = map cr_test (responses tr) ++ rest.
Proof. exact (fun p s0 is m0 m rq rs W => sys_tests p W s0 is m0 m rq rs). Qed.
Print Assumptions C03_lru_hits.

Definition prog_b : list creq :=
  [ rd 1 0x10 0; rd 2 0x30 0; rd 3 0x14 0; rd 4 0x50 0; rd 5 0x18 0; rd 6 0x30 0; wt 7 0x50 1 9; rd 8 0x34 1;
    mkCReq T_AMO_MAX 9 0x30 0 5; rd 10 0x10 0; rd 11 0x10 0; rd 12 0x50 0; rd 13 0x30 0;
    mkCReq T_FLUSH 14 0 0 0; rd 15 0x30 0; mkCReq T_FLUSH 16 0 0 0; mkCReq T_INV 17 0 0 0; rd 18 0x30 0; rd 19 0x30 0 ].
Lemma prog_b_wf : forall p, p = px \/ p = px1 -> Forall (wf_req p) prog_b.
Proof. intros p [-> | ->]; apply wf_all; reflexivity. Qed.

Example C03_example : exists is m rq rs, sys_run px (s0_a px) is mem_a m rq rs /\
  map cr_test (responses (trace_of px (s0_a px) is)) = [0; 0; 1; 0; 1; 0; 0; 1; 0; 0; 1; 1; 0; 0; 1; 0; 0; 0; 1].
Proof.
  do 4 eexists. split; [exact (run_a px prog_b (lively 300 0) (prog_b_wf px (or_introl eq_refl)))|]. vm_compute. auto.
Qed.
Example C03_example_1way : exists is m rq rs, sys_run px1 (s0_a px1) is mem_a m rq rs /\
  map cr_test (responses (trace_of px1 (s0_a px1) is)) = [0; 0; 1; 0; 0; 1; 0; 1; 0; 0; 1; 0; 0; 0; 1; 0; 0; 0; 1].
Proof.
  do 4 eexists. split; [exact (run_a px1 prog_b (lively 300 0) (prog_b_wf px1 (or_intror eq_refl)))|]. vm_compute. auto.
Qed.

(** C04.  Type, opaque, address and operand of the AMO messages sent to memory
    are those of the accepted AMOs, in order, none missing for an answered
    request and none repeated; and the data of AMO responses are the low 32 bits
    of memory's answers to them, in order. *)
Theorem C04_amo_once : forall p s0 is m0 m rq rs, wf_params p -> sys_run p s0 is m0 m rq rs ->
  let tr := trace_of p s0 is in
  (exists rest, map (fun r => (cq_type r, cq_opq r, cq_addr r, trunc (p_dbw p) (cq_data r)))
                    (filter (fun r => is_amo (cq_type r)) (accepted tr)) =
                map (fun q => (mq_type q, mq_opq q, mq_addr q, mq_data q))
                    (filter (fun q => is_amo (mq_type q)) (memreqs tr)) ++ rest) /\
  (exists mid, map (fun q => (mq_type q, mq_opq q, mq_addr q, mq_data q))
                   (filter (fun q => is_amo (mq_type q)) (memreqs tr)) =
               map (fun r => (cq_type r, cq_opq r, cq_addr r, trunc (p_dbw p) (cq_data r)))
                   (filter (fun r => is_amo (cq_type r)) (firstn (length (responses tr)) (accepted tr))) ++ mid) /\
  (exists rest, map (fun x => slice (mr_data x) 0 32) (filter (fun x => is_amo (mr_type x)) (memresps tr)) =
                map cr_data (filter (fun y => is_amo (cr_type y)) (responses tr)) ++ rest).
Proof.
  exact (fun p s0 is m0 m rq rs W R =>
    match sys_amo_once p W s0 is m0 m rq rs R with conj H1 H2 => conj H1 (conj H2 (sys_amo_data p W s0 is m0 m rq rs R)) end).
Qed.
Print Assumptions C04_amo_once.

(** C04, the write-back before the AMO: when a memory request is sent it is for
    the last accepted request [r]; if [r] is an AMO the whole group of requests
    for it is at most one write-back of exactly the pending words of its line,
    then the AMO itself with nothing of the line pending. *)
Theorem C04_amo_flushes_line : forall p s0 is i m0 m rq rs q A r, wf_params p ->
  sys_run p s0 (is ++ [i]) m0 m rq rs -> accepted (trace_of p s0 is) = A ++ [r] ->
  o_mreq (output p (fst (run p s0 is)) i) = Some q -> is_amo (cq_type r) = true ->
  exists G wb qa, length A = length G /\ traffic p (fun _ => false) lru_empty m0 (A ++ [r]) (G ++ [wb ++ [qa]]) /\
    In q (wb ++ [qa]) /\ (length wb <= 1)%nat /\
    wbs_ok p (pend_run p (fun _ => false) A G) (flat_mem p m0 A) wb /\
    (forall b, In b wb -> mq_addr b = line_bytes p * line_of p (cq_addr r)) /\
    (forall k, k * 4 / line_bytes p = line_of p (cq_addr r) -> clears p (pend_run p (fun _ => false) A G) wb k = false) /\
    mq_type qa = cq_type r /\ mq_addr qa = cq_addr r.
Proof. exact (fun p s0 is i m0 m rq rs q A r W => sys_amo_group p W s0 is i m0 m rq rs q A r). Qed.
Print Assumptions C04_amo_flushes_line.

(** C05.  After an AMO its line is in no way, and the next READ or WRITE of the
    line (whatever else happened in between) misses. *)
Theorem C05_amo_uncaches : forall p s0 is m0 m rq rs A r, wf_params p -> sys_run p s0 is m0 m rq rs ->
  length (accepted (trace_of p s0 is)) = length (responses (trace_of p s0 is)) ->
  accepted (trace_of p s0 is) = A ++ [r] -> is_amo (cq_type r) = true ->
  let s := fst (run p s0 is) in
  forall w, w < p_assoc p -> let e := tram s w (a_idx p (cq_addr r)) in
    te_val p e = true \/ te_dty p e <> 0 -> te_tag p e <> a_tag p (cq_addr r).
Proof. exact (fun p s0 is m0 m rq rs A r W => sys_amo_absent p W s0 is m0 m rq rs A r). Qed.
Print Assumptions C05_amo_uncaches.

Theorem C05_next_access_misses : forall p s0 is m0 m rq rs A r B r' C y, wf_params p -> sys_run p s0 is m0 m rq rs ->
  let tr := trace_of p s0 is in
  accepted tr = A ++ r :: B ++ r' :: C -> is_amo (cq_type r) = true ->
  line_of p (cq_addr r) = line_of p (cq_addr r') ->
  (forall x, In x B -> ~ (rw_req x = true /\ line_of p (cq_addr x) = line_of p (cq_addr r'))) ->
  nth_error (responses tr) (length (A ++ r :: B)) = Some y -> cr_test y = 0.
Proof.
  exact (fun p s0 is m0 m rq rs A r B r' C y W R E IA EL =>
    sys_dropped p W s0 is m0 m rq rs A r B r' C y R E (or_intror (conj IA EL))).
Qed.
Print Assumptions C05_next_access_misses.

(** ... and no other line is dropped: an access to another line right after the
    AMO hits exactly if it would have hit without the AMO. *)
Theorem C05_others_stay : forall p s0 is m0 m rq rs A r r' C y, wf_params p -> sys_run p s0 is m0 m rq rs ->
  let tr := trace_of p s0 is in
  accepted tr = A ++ r :: r' :: C -> is_amo (cq_type r) = true ->
  line_of p (cq_addr r) <> line_of p (cq_addr r') ->
  nth_error (responses tr) (S (length A)) = Some y ->
  nth_error (lru_tests p lru_empty (A ++ [r'])) (length A) = Some (cr_test y).
Proof. exact (fun p s0 is m0 m rq rs A r r' C y W => sys_amo_others p W s0 is m0 m rq rs A r r' C y). Qed.
Print Assumptions C05_others_stay.

(** C06.  INV makes no memory request (and neither does a hit), and the first
    READ or WRITE of any line after it misses.  Nothing written is lost: C01. *)
Theorem C06_inv_silent : forall p s0 is i m0 m rq rs A r, wf_params p -> sys_run p s0 (is ++ [i]) m0 m rq rs ->
  accepted (trace_of p s0 is) = A ++ [r] -> cq_type r = T_INV ->
  o_mreq (output p (fst (run p s0 is)) i) = None.
Proof. exact (fun p s0 is i m0 m rq rs A r W R E T => sys_inv_quiet p W s0 is i m0 m rq rs A r R E (or_introl T)). Qed.
Print Assumptions C06_inv_silent.

Theorem C06_inv_empties : forall p s0 is m0 m rq rs A r B r' C y, wf_params p -> sys_run p s0 is m0 m rq rs ->
  let tr := trace_of p s0 is in
  accepted tr = A ++ r :: B ++ r' :: C -> cq_type r = T_INV ->
  (forall x, In x B -> ~ (rw_req x = true /\ line_of p (cq_addr x) = line_of p (cq_addr r'))) ->
  nth_error (responses tr) (length (A ++ r :: B)) = Some y -> cr_test y = 0.
Proof.
  exact (fun p s0 is m0 m rq rs A r B r' C y W R E T =>
    sys_dropped p W s0 is m0 m rq rs A r B r' C y R E (or_introl T)).
Qed.
Print Assumptions C06_inv_empties.

(** C08.  Removing a FLUSH from the history does not change any other hit flag;
    a FLUSH with no WRITE since the previous FLUSH makes no memory request. *)
Theorem C08_flush_keeps_lines : forall p s0 is m0 m rq rs A f B, wf_params p -> sys_run p s0 is m0 m rq rs ->
  let tr := trace_of p s0 is in
  accepted tr = A ++ f :: B -> cq_type f = T_FLUSH ->
  exists rest, lru_tests p lru_empty A ++ 0 :: skipn (length A) (lru_tests p lru_empty (A ++ B)) =
               map cr_test (responses tr) ++ rest.
Proof. exact (fun p s0 is m0 m rq rs A f B W => sys_flush_keeps p W s0 is m0 m rq rs A f B). Qed.
Print Assumptions C08_flush_keeps_lines.

Theorem C08_flush_idempotent : forall p s0 is i m0 m rq rs A f B f', wf_params p -> sys_run p s0 (is ++ [i]) m0 m rq rs ->
  accepted (trace_of p s0 is) = A ++ f :: B ++ [f'] -> cq_type f = T_FLUSH -> cq_type f' = T_FLUSH ->
  (forall x, In x B -> cq_type x <> T_WRITE) -> o_mreq (output p (fst (run p s0 is)) i) = None.
Proof. exact (fun p s0 is i m0 m rq rs A f B f' W => sys_flush_quiet p W s0 is i m0 m rq rs A f B f'). Qed.
Print Assumptions C08_flush_idempotent.

(** C09, C42.  The memory requests sent so far are, in order, the groups [G] of
    requests that [traffic] (Traffic.v) allows for the accepted requests: all
    groups of answered requests are complete.  [traffic] says: hits and INV make
    no request; a miss makes at most one write-back (of another line of the set)
    and one line READ; an AMO at most one write-back of its own line, then the
    AMO; FLUSH writes back everything pending.  Every write-back selects exactly
    the words written by the processor and not yet written back, and carries the
    current bytes. *)
Theorem C09_exact_writebacks : forall p s0 is m0 m rq rs, wf_params p -> sys_run p s0 is m0 m rq rs ->
  let tr := trace_of p s0 is in
  exists G, traffic p (fun _ => false) lru_empty m0 (accepted tr) G /\
    (exists rest, concat G = memreqs tr ++ rest) /\
    (exists mid, memreqs tr = concat (firstn (length (responses tr)) G) ++ mid).
Proof. exact (fun p s0 is m0 m rq rs W => sys_traffic p W s0 is m0 m rq rs). Qed.
Print Assumptions C09_exact_writebacks.

(** C42 is the same theorem read for the grouping; here the part for hits. *)
Theorem C42_hits_silent : forall p s0 is i m0 m rq rs A r, wf_params p -> sys_run p s0 (is ++ [i]) m0 m rq rs ->
  accepted (trace_of p s0 is) = A ++ [r] -> rw_req r = true ->
  In (line_of p (cq_addr r)) (lru_run p lru_empty A (line_of p (cq_addr r) mod nblocks p)) ->
  o_mreq (output p (fst (run p s0 is)) i) = None.
Proof. exact (fun p s0 is i m0 m rq rs A r W R E T I => sys_inv_quiet p W s0 is i m0 m rq rs A r R E (or_intror (conj T I))). Qed.
Print Assumptions C42_hits_silent.

Theorem C42_traffic_per_request : forall p s0 is i m0 m rq rs q, wf_params p -> sys_run p s0 (is ++ [i]) m0 m rq rs ->
  o_mreq (output p (fst (run p s0 is)) i) = Some q ->
  exists A r G g, accepted (trace_of p s0 is) = A ++ [r] /\ length (responses (trace_of p s0 is)) = length A /\
    length A = length G /\ traffic p (fun _ => false) lru_empty m0 (A ++ [r]) (G ++ [g]) /\ In q g.
Proof. exact (fun p s0 is i m0 m rq rs q W => sys_sent p W s0 is i m0 m rq rs q). Qed.
Print Assumptions C42_traffic_per_request.

(** What "pending" means, spelled out: word [k] is pending after history [A] with
    traffic [G] iff some WRITE of [A] touched it and no later write-back covered it. *)
Theorem C09_pending_meaning : forall p A G k, length A = length G ->
  (pend_run p (fun _ => false) A G k = true <->
   exists A1 r A2, A = A1 ++ r :: A2 /\ cq_type r = T_WRITE /\
     word_num (cq_addr r) <= k <= word_num (cq_addr r + req_bytes p r - 1) /\
     forall q, In q (concat (skipn (S (length A1)) G)) -> is_write q = true -> in_req p q k = false).
Proof. exact pend_meaning. Qed.
Print Assumptions C09_pending_meaning.

(** C18.  Between requests no two ways of a set hold the same line. *)
Theorem C18_unique_line : forall p s0 is m0 m rq rs, wf_params p -> sys_run p s0 is m0 m rq rs ->
  total_lines p <= N.of_nat (length is) ->
  length (accepted (trace_of p s0 is)) = length (responses (trace_of p s0 is)) ->
  let s := fst (run p s0 is) in
  forall w w' j, w < p_assoc p -> w' < p_assoc p -> j < nblocks p ->
    te_val p (tram s w j) = true \/ te_dty p (tram s w j) <> 0 ->
    te_val p (tram s w' j) = true \/ te_dty p (tram s w' j) <> 0 ->
    te_tag p (tram s w j) = te_tag p (tram s w' j) -> w = w'.
Proof. exact (fun p s0 is m0 m rq rs W => sys_uniq p W s0 is m0 m rq rs). Qed.
Print Assumptions C18_unique_line.

(** C19.  Shape of every memory request. *)
Theorem C19_memreq_shape : forall p s0 is m0 m rq rs, wf_params p -> sys_run p s0 is m0 m rq rs ->
  let tr := trace_of p s0 is in
  Forall (fun q =>
    ((mq_type q = T_READ \/ mq_type q = T_WRITE /\ mq_mask q <> 0 /\ mq_mask q < 2 ^ (p_clw p / 32)) /\
      mq_addr q mod (p_clw p / 8) = 0 /\ mq_addr q < 2 ^ p_abw p /\ mq_len q = 0) \/
    (exists r, In r (accepted tr) /\ is_amo (mq_type q) = true /\ mq_type q = cq_type r /\ mq_addr q = cq_addr r /\
      mq_opq q = cq_opq r /\ mq_len q = 4 /\ mq_data q = trunc (p_dbw p) (cq_data r))) (memreqs tr).
Proof. exact (fun p s0 is m0 m rq rs W => sys_shape p W s0 is m0 m rq rs). Qed.
Print Assumptions C19_memreq_shape.

(** A run meeting the hypotheses of all of the above: every kind of request and
    memory request, a write-back before an AMO, a silent FLUSH, nothing in
    flight at the end. *)
Definition prog_c : list creq :=
  [ wt 1 0x14 0 0x1111; wt 2 0x18 1 0x22; mkCReq T_AMO_OR 3 0x10 0 5; rd 4 0x14 0; wt 5 0x34 2 0x33; rd 6 0x50 0; rd 7 0x70 0;
    wt 8 0x60 0 7; mkCReq T_INV 9 0 0 0; rd 10 0x60 0; mkCReq T_FLUSH 11 0 0 0; rd 12 0x60 0; mkCReq T_FLUSH 13 0 0 0 ].
Example C_example : exists is m rq rs, sys_run px (s0_a px) is mem_a m rq rs /\
  let tr := trace_of px (s0_a px) is in
  accepted tr = prog_c /\ length (responses tr) = 13%nat /\
  map (fun q => (mq_type q, mq_addr q, mq_mask q)) (memreqs tr) =
    [(0, 0x10, 0); (1, 0x10, 6); (5, 0x10, 0); (0, 0x10, 0); (0, 0x30, 0); (0, 0x50, 0); (1, 0x30, 2); (0, 0x70, 0); (0, 0x60, 0);
     (0, 0x60, 1); (1, 0x60, 1)].
Proof.
  do 4 eexists. split; [exact (run_a px prog_c (lively 300 0) (wf_all px prog_c eq_refl))|]. vm_compute. auto.
Qed.
