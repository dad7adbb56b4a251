(** C32, C33, C43: several caches over one memory (blocking_cache/test/MultiCacheTestCases.py).
    The vocabulary (multi_run, write_word, amo_word, respects) is MultiSys.v.
    [z i] is size and associativity of cache [i]; they may differ. *)
From Coq Require Import Arith NArith List Bool Lia.
From Verif Require Import Bits Params Msg Rtl Mem Spec System Traffic Harness Hide MultiSys MultiMore AmoAll MultiHarness.
Import ListNotations.
Open Scope N_scope.

(** C32.  Processors that write disjoint words, possibly of the same lines.
    Accesses of a cache to its own words behave as if the cache were alone: the
    [k]-th response is what the flat memory would give after the cache's own first
    [k] requests, whatever the other caches do. *)
Theorem C32_own_accesses : forall p z n owner s0 ts m0 m rq rs i k r y, wf_caches p z n ->
  multi_run p z n owner s0 ts m0 m rq rs -> (i < n)%nat ->
  nth_error (accepted (proj i ts)) k = Some r -> nth_error (responses (proj i ts)) k = Some y ->
  (cq_type r = T_READ -> forall j, j < req_bytes p r -> owner (word_num (cq_addr r + j)) = Some i) ->
  (is_amo (cq_type r) = true -> owner (word_num (cq_addr r)) = Some i) ->
  cr_type y = cq_type r /\ cr_opq y = cq_opq r /\ cr_len y = cq_len r /\
  cr_data y = snd (flat_exec p (flat_mem p m0 (firstn k (accepted (proj i ts)))) r).
Proof. exact (fun p z n owner s0 ts m0 m rq rs i k r y W => multi_own p z n W owner s0 ts m0 m rq rs i k r y). Qed.
Print Assumptions C32_own_accesses.

(** Hits and misses of a cache depend on its own requests only. *)
Theorem C32_hit_flags : forall p z n owner s0 ts m0 m rq rs i k r y, wf_caches p z n ->
  multi_run p z n owner s0 ts m0 m rq rs -> (i < n)%nat ->
  nth_error (accepted (proj i ts)) k = Some r -> nth_error (responses (proj i ts)) k = Some y ->
  cr_test y = snd (lru_step (sized p z i) (lru_run (sized p z i) lru_empty (firstn k (accepted (proj i ts)))) r).
Proof. exact (fun p z n owner s0 ts m0 m rq rs i k r y W => multi_flags p z n W owner s0 ts m0 m rq rs i k r y). Qed.
Print Assumptions C32_hit_flags.

(** No memory request of another cache changes a word of cache [i]. *)
Theorem C32_no_overwrite : forall p z n owner s0 ts m0 m rq rs i j q l a, wf_caches p z n ->
  multi_run p z n owner s0 ts m0 m rq rs ->
  (j < n)%nat -> rq j = q :: l -> owner (word_num a) = Some i -> i <> j -> a < 2 ^ p_abw p ->
  fst (mem_exec p m q) a = m a.
Proof. exact (fun p z n owner s0 ts m0 m rq rs i j q l a W => multi_no_overwrite p z n W owner s0 ts m0 m rq rs i j q l a). Qed.
Print Assumptions C32_no_overwrite.

(** A write-back's mask covers only words its own cache has written, and its data
    are the values that cache's own requests have left there. *)
Theorem C32_writebacks : forall p z n owner s0 ts t ts' m0 m rq rs i q, wf_caches p z n ->
  multi_run p z n owner s0 (ts ++ t :: ts') m0 m rq rs ->
  (i < n)%nat -> o_mreq (snd (t i)) = Some q -> mq_type q = T_WRITE ->
  exists A r, accepted (proj i ts) = A ++ [r] /\
    (forall b, N.testbit (mq_mask q) b = true -> exists v, In v A /\ write_word p v (word_num (mq_addr q) + b)) /\
    (forall o, o < p_clw p / 8 -> N.testbit (mq_mask q) (o / 4) = true ->
       slice (mq_data q) (8 * o) (8 * o + 8) = trunc 8 (flat_mem p m0 A (mq_addr q + o))).
Proof. exact (fun p z n owner s0 ts t ts' m0 m rq rs i q W => multi_writebacks p z n W owner s0 ts t ts' m0 m rq rs i q). Qed.
Print Assumptions C32_writebacks.

(** Once a FLUSH of the owner, later than its last write to the word, has been
    answered, memory holds the owner's last value, whatever the other caches do. *)
Theorem C32_flushed : forall p z n owner s0 ts m0 m rq rs i A f B a, wf_caches p z n ->
  multi_run p z n owner s0 ts m0 m rq rs -> (i < n)%nat ->
  accepted (proj i ts) = A ++ f :: B -> cq_type f = T_FLUSH -> (length A < length (responses (proj i ts)))%nat ->
  (forall r, In r B -> ~ write_word p r (word_num a) /\ ~ amo_word r (word_num a)) ->
  a < 2 ^ p_abw p -> owner (word_num a) = Some i ->
  trunc 8 (m a) = trunc 8 (flat_mem p m0 (accepted (proj i ts)) a).
Proof. exact (fun p z n owner s0 ts m0 m rq rs i A f B a W => multi_flushed p z n W owner s0 ts m0 m rq rs i A f B a). Qed.
Print Assumptions C32_flushed.

(** Words that no request writes keep their contents. *)
Theorem C32_untouched : forall p z n owner s0 ts m0 m rq rs a, wf_caches p z n ->
  multi_run p z n owner s0 ts m0 m rq rs -> a < 2 ^ p_abw p ->
  (forall i r, (i < n)%nat -> In r (accepted (proj i ts)) -> ~ write_word p r (word_num a) /\ ~ amo_word r (word_num a)) ->
  m a = m0 a.
Proof. exact (fun p z n owner s0 ts m0 m rq rs a W => multi_idle_word p z n W owner s0 ts m0 m rq rs a). Qed.
Print Assumptions C32_untouched.

(** Two caches (one two-way with four lines, one direct-mapped with eight), every line falsely shared (even words cache 0's, odd words cache
    1's): a run in which both write the line at 0x10, read each other's words, use
    a shared AMO counter and flush; all requests answered; all writes survive. *)
Example C32_example : wf_caches px z_m 2 /\ z_m 0%nat <> z_m 1%nat /\ (exists rq rs, multi_run px z_m 2 own_ex st_m ts_m mem_a end_m rq rs) /\
  accepted (proj 0 ts_m) = prog_m0 /\ accepted (proj 1 ts_m) = prog_m1 /\
  length (responses (proj 0 ts_m)) = 9%nat /\ length (responses (proj 1 ts_m)) = 8%nat /\
  map (fun a => rd_bytes end_m a 4) [0x10; 0x14; 0x1c] =
    [0xdeadbeef; 0xcafe0000; rd_bytes (wr_bytes mem_a 0x1c 1 0x99) 0x1c 4] /\
  rd_bytes end_m 0xfff0 4 = rd_bytes mem_a 0xfff0 4 + 5 + 6.
Proof. split; [exact z_m_wf|]. split; [discriminate|]. split; [exact run_m|]. vm_compute. repeat split; reflexivity. Qed.

(** C33.  A byte of a word the reader does not own is what memory held at some
    moment [mu] between the two halves [t1], [t2] of the run, no later than the
    read and after every earlier INV of the reader (every such INV, the [l]-th
    request, and its successor had been accepted by then). *)
Theorem C33_fresh : forall p z n owner s0 ts m0 m rq rs i k r y b, wf_caches p z n ->
  multi_run p z n owner s0 ts m0 m rq rs -> (i < n)%nat ->
  nth_error (accepted (proj i ts)) k = Some r -> nth_error (responses (proj i ts)) k = Some y ->
  cq_type r = T_READ -> b < req_bytes p r -> owner (word_num (cq_addr r + b)) <> Some i ->
  exists t1 t2 mu rq1 rs1, ts = t1 ++ t2 /\
    mmem p n m0 no_reqs no_resps t1 mu rq1 rs1 /\ mmem p n mu rq1 rs1 t2 m rq rs /\
    (forall l v, (l < k)%nat -> nth_error (accepted (proj i ts)) l = Some v -> cq_type v = T_INV ->
       (l + 1 < length (accepted (proj i t1)))%nat) /\
    (length (accepted (proj i t1)) <= k + 1)%nat /\
    slice (cr_data y) (8 * b) (8 * b + 8) = trunc 8 (mu (cq_addr r + b)).
Proof. exact (fun p z n owner s0 ts m0 m rq rs i k r y b W => multi_fresh p z n W owner s0 ts m0 m rq rs i k r y b). Qed.
Print Assumptions C33_fresh.

(** The writer [j]'s FLUSH [f] is answered within [ts1], the reader [i]'s INV [v]
    is accepted after [ts1] and its READ [r] after the INV: every byte [r] reads of
    a word of [j], not written by [j] again after [f], is [j]'s value at the FLUSH. *)
Theorem C33_message : forall p z n owner s0 ts1 ts2 m0 m rq rs i j A f B l v k r y b, wf_caches p z n ->
  multi_run p z n owner s0 (ts1 ++ ts2) m0 m rq rs -> (i < n)%nat -> (j < n)%nat -> i <> j ->
  (* the writer's flush has been answered within [ts1] *)
  accepted (proj j (ts1 ++ ts2)) = A ++ f :: B -> cq_type f = T_FLUSH -> (length A < length (responses (proj j ts1)))%nat ->
  (* the reader's invalidation starts after [ts1] *)
  nth_error (accepted (proj i (ts1 ++ ts2))) l = Some v -> cq_type v = T_INV -> (length (accepted (proj i ts1)) <= l)%nat ->
  (* and a read follows it *)
  nth_error (accepted (proj i (ts1 ++ ts2))) k = Some r -> nth_error (responses (proj i (ts1 ++ ts2))) k = Some y -> (l < k)%nat ->
  cq_type r = T_READ -> b < req_bytes p r -> owner (word_num (cq_addr r + b)) = Some j ->
  (forall w, In w B -> ~ write_word p w (word_num (cq_addr r + b)) /\ ~ amo_word w (word_num (cq_addr r + b))) ->
  slice (cr_data y) (8 * b) (8 * b + 8) = trunc 8 (flat_mem p m0 A (cq_addr r + b)).
Proof.
  exact (fun p z n owner s0 ts1 ts2 m0 m rq rs i j A f B l v k r y b W =>
    multi_message p z n W owner s0 ts1 ts2 m0 m rq rs i j A f B l v k r y b).
Qed.
Print Assumptions C33_message.

(** In the run above cache 0's first FLUSH (request 5) is answered by cycle 50 and
    cache 1's INV (request 3) is accepted later.  Cache 1's READ of cache 0's word
    0x10 just before the INV hits and returns stale data; the one after it returns
    what cache 0 wrote. *)
Example C33_example : (exists rq rs, multi_run px z_m 2 own_ex st_m (firstn 50 ts_m ++ skipn 50 ts_m) mem_a end_m rq rs) /\
  accepted (proj 0 ts_m) = firstn 5 prog_m0 ++ mkCReq T_FLUSH 6 0 0 0 :: skipn 6 prog_m0 /\
  (5 < length (responses (proj 0 (firstn 50 ts_m))))%nat /\
  nth_error (accepted (proj 1 ts_m)) 3 = Some (mkCReq T_INV 4 0 0 0) /\
  (length (accepted (proj 1 (firstn 50 ts_m))) <= 3)%nat /\
  map cr_data (firstn 5 (responses (proj 1 ts_m))) = [0; rd_bytes mem_a 0x10 4; 0; 0; 0xdeadbeef] /\
  rd_bytes (flat_mem px mem_a (firstn 5 prog_m0)) 0x10 4 = 0xdeadbeef.
Proof.
  split; [rewrite firstn_skipn; exact run_m|]. vm_compute. repeat split; auto; repeat constructor.
Qed.

(** C43.  Atomic operations of all caches on words that nobody WRITEs take effect
    one at a time, whatever else the caches do (they may read and write all other
    words, of the same lines too, in any way, invalidate and flush).  There is one global list [L] of AMOs (cache, request, value
    returned) such that
    - on every such word the AMOs of [L], executed one after the other, return
      exactly those values and turn the initial contents into the present ones;
    - for every cache, [L] contains its answered AMOs with the values it returned,
      and only accepted ones, in the cache's order;
    - [L] respects real time: cut the run anywhere; the AMOs answered before the
      cut are in the first part of [L], those accepted after it in the second. *)
Theorem C43_amo_atomic : forall p z n s0 ts m0 m rq rs, wf_caches p z n ->
  clients p z n s0 ts -> mmem p n m0 no_reqs no_resps ts m rq rs ->
  exists L : list (nat * (creq * N)),
    Forall (fun x => (fst x < n)%nat) L /\
    (forall a, a mod 4 = 0 -> a < 2 ^ p_abw p -> unwritten p n ts (word_num a) ->
       amo_seq (rd_bytes m0 a 4) (at_word a (map snd L)) (rd_bytes m a 4)) /\
    (forall ts1 ts2, ts = ts1 ++ ts2 -> exists L1 L2, L = L1 ++ L2 /\ forall i, (i < n)%nat ->
       prefix (amos_done (proj i ts1)) (by_cache i L1) /\ prefix (map fst (by_cache i L1)) (amos (proj i ts1))) /\
    (forall i, (i < n)%nat -> prefix (amos_done (proj i ts)) (by_cache i L) /\ prefix (map fst (by_cache i L)) (amos (proj i ts))).
Proof. exact (fun p z n s0 ts m0 m rq rs W => multi_amo p z n W s0 ts m0 m rq rs). Qed.
Print Assumptions C43_amo_atomic.

(** A test-and-set lock: if all AMOs on the word are AMO_SWAP with 1, at most one
    of all those answered, over all caches, returns 0. *)
Theorem C43_test_and_set : forall p z n s0 ts m0 m rq rs a, wf_caches p z n ->
  clients p z n s0 ts -> mmem p n m0 no_reqs no_resps ts m rq rs ->
  a mod 4 = 0 -> a < 2 ^ p_abw p -> unwritten p n ts (word_num a) ->
  (forall i r, (i < n)%nat -> In r (amos (proj i ts)) -> cq_addr r = a -> cq_type r = T_AMO_SWAP /\ trunc 32 (cq_data r) = 1) ->
  forall i j k l r r', (i < n)%nat -> (j < n)%nat ->
  nth_error (at_word a (amos_done (proj i ts))) k = Some (r, 0) -> nth_error (at_word a (amos_done (proj j ts))) l = Some (r', 0) ->
  i = j /\ k = l.
Proof. exact (fun p z n s0 ts m0 m rq rs a W => multi_lock p z n W s0 ts m0 m rq rs a). Qed.
Print Assumptions C43_test_and_set.

(** A shared counter: if all AMOs on the word are AMO_ADD and all requests have
    been answered, the word has grown by the sum of all operands of all caches. *)
Theorem C43_counter : forall p z n s0 ts m0 m rq rs a, wf_caches p z n ->
  clients p z n s0 ts -> mmem p n m0 no_reqs no_resps ts m rq rs ->
  a mod 4 = 0 -> a < 2 ^ p_abw p -> unwritten p n ts (word_num a) ->
  (forall i r, (i < n)%nat -> In r (amos (proj i ts)) -> cq_addr r = a -> cq_type r = T_AMO_ADD) ->
  (forall i, (i < n)%nat -> length (responses (proj i ts)) = length (accepted (proj i ts))) ->
  rd_bytes m a 4 = trunc 32 (rd_bytes m0 a 4 + all_operands n a ts).
Proof. exact (fun p z n s0 ts m0 m rq rs a W => multi_counter p z n W s0 ts m0 m rq rs a). Qed.
Print Assumptions C43_counter.

(** The shared counter at 0xfff0 of the run above: 5 from cache 0, 6 from cache 1. *)
Example C43_example : clients px z_m 2 st_m ts_m /\ (exists rq rs, mmem px 2 mem_a no_reqs no_resps ts_m end_m rq rs) /\
  0xfff0 mod 4 = 0 /\ 0xfff0 < 2 ^ p_abw px /\ unwritten px 2 ts_m (word_num 0xfff0) /\
  map (fun i => map (fun r => (cq_addr r, cq_type r =? T_AMO_ADD)) (amos (proj i ts_m))) [0; 1]%nat =
    [[(0xfff0, true); (0x18, true)]; [(0xfff0, true)]] /\
  map (fun i => length (responses (proj i ts_m))) [0; 1]%nat = map (fun i => length (accepted (proj i ts_m))) [0; 1]%nat /\
  map (fun i => map snd (at_word 0xfff0 (amos_done (proj i ts_m)))) [0; 1]%nat =
    [[rd_bytes mem_a 0xfff0 4]; [rd_bytes mem_a 0xfff0 4 + 5]] /\
  all_operands 2 0xfff0 ts_m = 11.
Proof.
  destruct run_m as (rq & rs & C & H). split; [intros i I; destruct (C i I) as (C1 & C2 & C3 & _); auto|].
  split; [eauto|]. split; [reflexivity|]. split; [reflexivity|].
  split; [apply unwrittenb_ok; vm_compute; reflexivity|]. vm_compute; repeat split; reflexivity.
Qed.

(** Four attempts at a free lock: cache 1's first one wins.  Both caches WRITE the
    word next to it, which nobody owns. *)
Example C43_lock_example : clients px z_m 2 st_m ts_l /\ (exists rq rs, mmem px 2 mem_l no_reqs no_resps ts_l end_l rq rs) /\
  unwritten px 2 ts_l (word_num 0xfff0) /\
  map (fun i => map (fun r => (cq_addr r, cq_type r =? T_AMO_SWAP, cq_data r)) (amos (proj i ts_l))) [0; 1]%nat =
    [[(0xfff0, true, 1)]; [(0xfff0, true, 1); (0xfff0, true, 1); (0xfff0, true, 1)]] /\
  map (fun i => map snd (at_word 0xfff0 (amos_done (proj i ts_l)))) [0; 1]%nat = [[1]; [0; 1; 1]].
Proof.
  split; [apply run_l|]. split; [apply run_l|]. split; [apply unwrittenb_ok; vm_compute; reflexivity|]. vm_compute. repeat split; reflexivity.
Qed.
