(** C68: losing all caches of a multi-cache system at an arbitrary moment. *)
From Coq Require Import Arith NArith List Bool Lia.
From Verif Require Import Bits Params Msg Rtl Mem Spec System Traffic Harness Crash MultiSys MultiHarness CrashMultiSpec CrashMulti.
Import ListNotations.
Open Scope N_scope.

(** C68.  At every moment of every run of any number of caches, the part of any line
    of main memory that belongs to cache [i] is, as a whole, what it was in the flat
    memory after some number [k] of that cache's own accepted requests, whatever the
    other caches do, even to the rest of the same line.  And [k] is past every
    answered FLUSH of cache [i] and every answered AMO of cache [i] on the line. *)
Theorem C68_crash_consistent : forall p z n owner s0 ts m0 m rq rs i l, wf_caches p z n ->
  multi_run p z n owner s0 ts m0 m rq rs -> (i < n)%nat ->
  let A := accepted (proj i ts) in
  exists k, (k <= length A)%nat /\ same_own p owner i l m (flat_mem p m0 (firstn k A)) /\
    forall j r, (j < length (responses (proj i ts)))%nat -> nth_error A j = Some r -> durable p l r -> (j < k)%nat.
Proof. exact (fun p z n owner s0 ts m0 m rq rs i l W => multi_crash p z n W owner s0 m0 ts m rq rs i l). Qed.
Print Assumptions C68_crash_consistent.

(** Two sessions, all caches reset in between and the memory kept (caches may be
    of another size in the second).  If cache [i] ended the first with an answered
    FLUSH, its accesses to its own words in the second are those of one flat memory
    through both sessions, whatever the other caches did, were doing when they were
    lost, and do afterwards. *)
Theorem C68_sessions : forall p z z2 n owner s0 ts m0 m rq rs s1 ts2 m2 rq2 rs2 i A f k r y,
  wf_caches p z n -> wf_caches p z2 n ->
  multi_run p z n owner s0 ts m0 m rq rs -> multi_run p z2 n owner s1 ts2 m m2 rq2 rs2 -> (i < n)%nat ->
  accepted (proj i ts) = A ++ [f] -> cq_type f = T_FLUSH -> length (responses (proj i ts)) = length (accepted (proj i ts)) ->
  nth_error (accepted (proj i ts2)) k = Some r -> nth_error (responses (proj i ts2)) k = Some y ->
  (cq_type r = T_READ -> forall j, j < req_bytes p r -> owner (word_num (cq_addr r + j)) = Some i) ->
  (is_amo (cq_type r) = true -> owner (word_num (cq_addr r)) = Some i) ->
  cr_data y = snd (flat_exec p (flat_mem p m0 (accepted (proj i ts) ++ firstn k (accepted (proj i ts2)))) r).
Proof.
  exact (fun p z z2 n owner s0 ts m0 m rq rs s1 ts2 m2 rq2 rs2 i A f k r y W W2 =>
    multi_sessions p z z2 n W W2 owner s0 ts m0 m rq rs s1 ts2 m2 rq2 rs2 i A f k r y).
Qed.
Print Assumptions C68_sessions.

(** Both caches write their words of the line at 0x10; cache 1 has its FLUSH
    answered, cache 0 is stopped before its own.  Memory then has the word of cache 1
    and not that of cache 0, though both WRITEs were answered: each part is from
    its own moment. *)
Definition c_0 : list creq := [wt 1 0x10 0 0x11111111; wt 2 0x18 0 0x22222222].
Definition c_1 : list creq := [wt 1 0x14 0 0x33333333; mkCReq T_FLUSH 2 0 0 0].
Definition d_c := mdrive px z_m sm sm1 mem_a [] [] c_0 c_1 (combine (eager 40) (eager 40)).
Definition ts_c : list cyc := map two (fst d_c).
Lemma run_c : exists rq rs, multi_run px z_m 2 own_ex st_m ts_c mem_a (snd d_c) rq rs.
Proof. apply (mdrive_run px z_m own_ex sm sm1 mem_a c_0 c_1); try apply mk_reset_ok; apply prog_ok; vm_compute; reflexivity. Qed.
(** Then both caches are lost, and cache 1 reads its word and writes it again. *)
Definition c_2 : list creq := [rd 1 0x10 0].
Definition c_3 : list creq := [rd 1 0x14 0; mkCReq T_AMO_ADD 2 0x14 0 4; rd 3 0x14 2].
Definition d_c2 := mdrive px z_m sm sm1 (snd d_c) [] [] c_2 c_3 (combine (lively 60 0) (lively 60 1)).
Definition ts_c2 : list cyc := map two (fst d_c2).
Lemma run_c2 : exists rq rs, multi_run px z_m 2 own_ex st_m ts_c2 (snd d_c) (snd d_c2) rq rs.
Proof. apply (mdrive_run px z_m own_ex sm sm1 (snd d_c) c_2 c_3); try apply mk_reset_ok; apply prog_ok; vm_compute; reflexivity. Qed.

Example C68_example : wf_caches px z_m 2 /\
  (exists rq rs, multi_run px z_m 2 own_ex st_m ts_c mem_a (snd d_c) rq rs) /\
  accepted (proj 0 ts_c) = c_0 /\ accepted (proj 1 ts_c) = c_1 /\
  length (responses (proj 0 ts_c)) = 2%nat /\ length (responses (proj 1 ts_c)) = 2%nat /\
  map (fun a => rd_bytes (snd d_c) a 4) [0x10; 0x14; 0x18] = [rd_bytes mem_a 0x10 4; 0x33333333; rd_bytes mem_a 0x18 4] /\
  rd_bytes mem_a 0x10 4 <> 0x11111111 /\
  (exists rq rs, multi_run px z_m 2 own_ex st_m ts_c2 (snd d_c) (snd d_c2) rq rs) /\
  accepted (proj 1 ts_c2) = c_3 /\ map cr_data (responses (proj 1 ts_c2)) = [0x33333333; 0x33333333; 0x3337].
Proof.
  split; [exact z_m_wf|]. split; [exact run_c|].
  split; [vm_compute; reflexivity|]. split; [vm_compute; reflexivity|]. split; [vm_compute; reflexivity|]. split; [vm_compute; reflexivity|].
  split; [vm_compute; reflexivity|]. split; [vm_compute; discriminate|]. split; [exact run_c2|].
  split; [vm_compute; reflexivity|]. vm_compute. reflexivity.
Qed.
(** The line as a whole is not covered: with everything answered, one owner's part of
    it can be older than that owner's last WRITE while another owner's part is new. *)
Theorem C68_whole_line_refuted : exists p z n owner s0 ts m0 m rq rs l, wf_caches p z n /\
  multi_run p z n owner s0 ts m0 m rq rs /\
  (forall i, (i < n)%nat -> length (responses (proj i ts)) = length (accepted (proj i ts))) /\
  (exists a, line_of p a = l /\ exists i k, (i < n)%nat /\ owner (word_num a) = Some i /\ (k < length (accepted (proj i ts)))%nat /\
     trunc 8 (m a) = trunc 8 (flat_mem p m0 (firstn k (accepted (proj i ts))) a) /\
     trunc 8 (m a) <> trunc 8 (flat_mem p m0 (accepted (proj i ts)) a)) /\
  (exists a, line_of p a = l /\ exists i, (i < n)%nat /\ owner (word_num a) = Some i /\
     trunc 8 (m a) <> trunc 8 (m0 a)).
Proof.
  destruct run_c as (rq & rs & R). exists px, z_m, 2%nat, own_ex, st_m, ts_c, mem_a, (snd d_c), rq, rs, 1.
  split; [exact z_m_wf|]. split; [exact R|]. split.
  { intros [|[|i]] I; [vm_compute; reflexivity | vm_compute; reflexivity | exfalso; lia]. }
  split.
  - exists 0x10. split; [reflexivity|]. exists 0%nat, 0%nat. split; [lia|]. split; [reflexivity|].
    split; [vm_compute; lia|]. split; [vm_compute; reflexivity|]. vm_compute. discriminate.
  - exists 0x14. split; [reflexivity|]. exists 1%nat. split; [lia|]. split; [reflexivity|]. vm_compute. discriminate.
Qed.
Print Assumptions C68_whole_line_refuted.
