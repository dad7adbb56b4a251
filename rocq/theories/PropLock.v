(** C59: shared data protected by a test-and-set lock (AMO_SWAP), an INV on entry and a
    FLUSH before release. *)
From Coq Require Import Arith NArith List Bool Lia.
From Verif Require Import Bits Params Msg Rtl Mem Spec System Traffic Harness Hide MultiSys MultiHarness DynSpec DynProofs DynFacts DynMore
  LockSpec Lock LockCount LockHarness.
Import ListNotations.
Open Scope N_scope.

(** C59.  [n] caches over one memory, any schedule; the clients use the word at [a] as a
    lock for the words of [G] ([lock_client], LockSpec.v), and may do anything else.
    At any time at most one cache holds the lock. *)
Theorem C59_mutual_exclusion : forall p z n s0 m0 a (G : N -> Prop) ts m rq rs t i j, wf_caches p z n ->
  a mod 4 = 0 -> a < 2 ^ p_abw p ->
  clients p z n s0 ts -> mmem p n m0 no_reqs no_resps ts m rq rs ->
  (forall i, (i < n)%nat -> lock_client p a G (proj i ts)) -> (i < n)%nat -> (j < n)%nat ->
  holds a (proj i (firstn t ts)) = true -> holds a (proj j (firstn t ts)) = true -> i = j.
Proof. exact (fun p z n s0 m0 a G ts m rq rs t i j W A4 AR => lock_excl p z n W s0 m0 a G A4 AR ts m rq rs t i j). Qed.
Print Assumptions C59_mutual_exclusion.

(** While some cache holds the lock, main memory has 1 in it. *)
Theorem C59_lock_word : forall p z n s0 m0 a (G : N -> Prop) ts m rq rs i, wf_caches p z n ->
  a mod 4 = 0 -> a < 2 ^ p_abw p ->
  clients p z n s0 ts -> mmem p n m0 no_reqs no_resps ts m rq rs ->
  (forall i, (i < n)%nat -> lock_client p a G (proj i ts)) -> (i < n)%nat -> holds a (proj i ts) = true -> rd_bytes m a 4 = 1.
Proof.
  exact (fun p z n s0 m0 a G ts m rq rs i W A4 AR C M LC => proj2 (lock_state p z n W s0 m0 a G A4 AR ts m rq rs C M LC) i).
Qed.
Print Assumptions C59_lock_word.

(** Reads and AMOs of protected words return what one memory would that executes the
    requests of all caches in the order of their acceptance. *)
Theorem C59_read : forall p z n s0 m0 a (G : N -> Prop) k ts1 t ts2 m rq rs i y j, wf_caches p z n ->
  a mod 4 = 0 -> a < 2 ^ p_abw p -> G k -> ~ G (word_num a) -> k * 4 < 2 ^ p_abw p ->
  clients p z n s0 (ts1 ++ t :: ts2) -> mmem p n m0 no_reqs no_resps (ts1 ++ t :: ts2) m rq rs ->
  (forall i, (i < n)%nat -> lock_client p a G (proj i (ts1 ++ t :: ts2))) -> (i < n)%nat -> i_req_en (fst (t i)) = true ->
  nth_error (responses (proj i (ts1 ++ t :: ts2))) (length (accepted (proj i ts1))) = Some y ->
  let r := i_req (fst (t i)) in
  cq_type r = T_READ -> j < req_bytes p r -> word_num (cq_addr r + j) = k ->
  slice (cr_data y) (8 * j) (8 * j + 8) = trunc 8 (flat_mem p m0 (hist n ts1) (cq_addr r + j)).
Proof.
  exact (fun p z n s0 m0 a G k ts1 t ts2 m rq rs i y j W A4 AR GK GA HK =>
    lock_read p z n W s0 m0 a G A4 AR k GK GA HK ts1 t ts2 m rq rs i y j).
Qed.
Print Assumptions C59_read.
Theorem C59_amo : forall p z n s0 m0 a (G : N -> Prop) k ts1 t ts2 m rq rs i y, wf_caches p z n ->
  a mod 4 = 0 -> a < 2 ^ p_abw p -> G k -> ~ G (word_num a) -> k * 4 < 2 ^ p_abw p ->
  clients p z n s0 (ts1 ++ t :: ts2) -> mmem p n m0 no_reqs no_resps (ts1 ++ t :: ts2) m rq rs ->
  (forall i, (i < n)%nat -> lock_client p a G (proj i (ts1 ++ t :: ts2))) -> (i < n)%nat -> i_req_en (fst (t i)) = true ->
  nth_error (responses (proj i (ts1 ++ t :: ts2))) (length (accepted (proj i ts1))) = Some y ->
  amo_word (i_req (fst (t i))) k -> cr_data y = rd_bytes (flat_mem p m0 (hist n ts1)) (cq_addr (i_req (fst (t i)))) 4.
Proof.
  exact (fun p z n s0 m0 a G k ts1 t ts2 m rq rs i y W A4 AR GK GA HK =>
    lock_amo p z n W s0 m0 a G A4 AR k GK GA HK ts1 t ts2 m rq rs i y).
Qed.
Print Assumptions C59_amo.

(** When nobody holds the lock, main memory has the protected words of that one memory. *)
Theorem C59_memory : forall p z n s0 m0 a (G : N -> Prop) k ts m rq rs x, wf_caches p z n ->
  a mod 4 = 0 -> a < 2 ^ p_abw p -> G k -> ~ G (word_num a) -> k * 4 < 2 ^ p_abw p ->
  clients p z n s0 ts -> mmem p n m0 no_reqs no_resps ts m rq rs ->
  (forall i, (i < n)%nat -> lock_client p a G (proj i ts)) -> (forall i, (i < n)%nat -> holds a (proj i ts) = false) ->
  x < 2 ^ p_abw p -> word_num x = k -> trunc 8 (m x) = trunc 8 (flat_mem p m0 (hist n ts) x).
Proof.
  exact (fun p z n s0 m0 a G k ts m rq rs x W A4 AR GK GA HK => lock_mem p z n W s0 m0 a G A4 AR k GK GA HK ts m rq rs x).
Qed.
Print Assumptions C59_memory.

(** No lost update: what a READ of a protected word returned remains the word's value, in
    that one memory, until the reader's next AMO on the lock or modification of the word. *)
Theorem C59_unchanged : forall p z n s0 m0 a (G : N -> Prop) k ts1 t ts2 ts3 m rq rs i y j, wf_caches p z n ->
  a mod 4 = 0 -> a < 2 ^ p_abw p -> G k -> ~ G (word_num a) -> k * 4 < 2 ^ p_abw p ->
  clients p z n s0 (ts1 ++ t :: ts2 ++ ts3) -> mmem p n m0 no_reqs no_resps (ts1 ++ t :: ts2 ++ ts3) m rq rs ->
  (forall i, (i < n)%nat -> lock_client p a G (proj i (ts1 ++ t :: ts2 ++ ts3))) -> (i < n)%nat -> i_req_en (fst (t i)) = true ->
  nth_error (responses (proj i (ts1 ++ t :: ts2 ++ ts3))) (length (accepted (proj i ts1))) = Some y ->
  let r := i_req (fst (t i)) in
  cq_type r = T_READ -> j < req_bytes p r -> word_num (cq_addr r + j) = k ->
  (forall q, In q (accepted (proj i ts2)) -> lock_op a q = false /\ ~ modifies p q k) ->
  slice (cr_data y) (8 * j) (8 * j + 8) = trunc 8 (flat_mem p m0 (hist n (ts1 ++ t :: ts2)) (cq_addr r + j)).
Proof.
  exact (fun p z n s0 m0 a G k ts1 t ts2 ts3 m rq rs i y j W A4 AR GK GA HK =>
    lock_unchanged p z n W s0 m0 a G A4 AR k GK GA HK ts1 t ts2 ts3 m rq rs i y j).
Qed.
Print Assumptions C59_unchanged.

(** A counter: if every modification of the protected word [k] WRITEs what was READ plus
    an increment, then once nobody holds the lock main memory has grown by the sum of the
    increments of all caches. *)
Theorem C59_counter : forall p z n s0 m0 a (G : N -> Prop) k inc ts m rq rs, wf_caches p z n ->
  a mod 4 = 0 -> a < 2 ^ p_abw p -> G k -> ~ G (word_num a) -> k * 4 < 2 ^ p_abw p ->
  clients p z n s0 ts -> mmem p n m0 no_reqs no_resps ts m rq rs ->
  (forall i, (i < n)%nat -> lock_client p a G (proj i ts)) -> (forall i, (i < n)%nat -> counts_up p a k inc ts i) ->
  (forall i, (i < n)%nat -> holds a (proj i ts) = false) -> (0 < n)%nat ->
  rd_bytes m (4 * k) 4 = trunc 32 (rd_bytes m0 (4 * k) 4 + total k n inc ts).
Proof.
  exact (fun p z n s0 m0 a G k inc ts m rq rs W A4 AR GK GA HK =>
    lock_counter_mem p z n W s0 m0 a G A4 AR k GK GA HK inc ts m rq rs).
Qed.
Print Assumptions C59_counter.

(** Two caches of different sizes; the counter at 0x10 has 41 in it.  Cache 0 holds the
    lock in cycles 32 to 150 and cache 1, whose first two attempts fail, in cycles 172 to
    310; cache 1 reads cache 0's 42. *)
Example C59_example : wf_caches px z_m 2 /\ 0xfff0 mod 4 = 0 /\ 0xfff0 < 2 ^ p_abw px /\ word_num 0xfff0 <> 4 /\
  clients px z_m 2 st_m ts_k /\ (exists rq rs, mmem px 2 mem_k no_reqs no_resps ts_k end_k rq rs) /\
  (forall i, (i < 2)%nat -> lock_client px 0xfff0 (fun k => k = 4) (proj i ts_k)) /\
  (forall i, (i < 2)%nat -> counts_up px 0xfff0 4 (fun _ _ => 1) ts_k i) /\
  map (fun i => map (fun t => holds 0xfff0 (proj i (firstn t ts_k))) [31; 32; 150; 151; 171; 172; 310; 311; 435]%nat) [0; 1]%nat =
    [[false; true; true; false; false; false; false; false; false]; [false; false; false; false; false; true; true; false; false]] /\
  map (fun i => map cr_data (responses (proj i ts_k))) [0; 1]%nat = [[0; 0; 41; 0; 0; 1]; [rd_bytes mem_a 0x14 4; 1; 1; 0; 0; 42; 0; 0; 1]] /\
  total 4 2 (fun _ _ => 1) ts_k = 2.
Proof.
  split; [apply z_m_wf|]. split; [reflexivity|]. split; [reflexivity|]. split; [discriminate|]. split; [apply run_k|]. split; [apply run_k|].
  split; [intros i I; apply lockb_ok; destruct i as [|[|i]]; [vm_compute; reflexivity.. | lia]|].
  split; [intros i I; apply countsb_ok; destruct i as [|[|i]]; [vm_compute; reflexivity.. | lia]|].
  vm_compute. repeat split; reflexivity.
Qed.

(** The FLUSH is needed: cache 0 acquires the lock, invalidates, reads 41, writes 42 and
    releases the lock; then cache 1 acquires it, invalidates, and still reads 41. *)
Theorem C59_without_flush_refuted : exists p z s0 m0 a k ts1 ts2 m rq rs r w i0 q y, wf_caches p z 2 /\
  clients p z 2 s0 (ts1 ++ ts2) /\ mmem p 2 m0 no_reqs no_resps (ts1 ++ ts2) m rq rs /\
  let acquire := fun o => mkCReq T_AMO_SWAP o a 0 1 in let release := fun o => mkCReq T_AMO_SWAP o a 0 0 in
  accepted (proj 0 ts1) = [acquire 1; i0; r; w; release 5] /\ accepted (proj 0 ts2) = [] /\
  length (responses (proj 0 ts1)) = length (accepted (proj 0 ts1)) /\
  cq_type i0 = T_INV /\ cq_type w = T_WRITE /\ cq_len w = 0 /\ cq_addr w = 4 * k /\
  accepted (proj 1 ts1) = [] /\ accepted (proj 1 ts2) = [acquire 2; mkCReq T_INV 5 0 0 0; q] /\
  critical a (proj 1 (ts1 ++ ts2)) /\ cq_type q = T_READ /\ cq_len q = 0 /\ cq_addr q = 4 * k /\
  nth_error (responses (proj 1 (ts1 ++ ts2))) 2 = Some y /\ cr_data y = rd_bytes m0 (4 * k) 4 /\ cr_data y <> cq_data w.
Proof.
  destruct run_f as (C & rq & rs & M).
  exists px, z_m, st_m, mem_k, 0xfff0, 4, (firstn 150 ts_f), (skipn 150 ts_f), end_f, rq, rs, (rd 3 0x10 0), (wt 4 0x10 0 42), (mkCReq T_INV 2 0 0 0), (rd 6 0x10 0).
  rewrite firstn_skipn. eexists. split; [apply z_m_wf|]. split; [exact C|]. split; [exact M|]. cbv zeta.
  repeat (split; [first [apply criticalb_ok; vm_compute; reflexivity | vm_compute; reflexivity]|]). vm_compute. discriminate.
Qed.
Print Assumptions C59_without_flush_refuted.
