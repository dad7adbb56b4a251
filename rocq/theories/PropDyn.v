(** C51: caches that know nothing of each other, with clients that hand words
    over in software (INV before, FLUSH after), are sequentially consistent. *)
From Coq Require Import Arith NArith List Bool Lia.
From Verif Require Import Bits Params Msg Rtl Mem Spec System Harness Traffic MultiSys MultiHarness Hide DynSpec DynProofs DynFacts DynMore.
Import ListNotations.
Open Scope N_scope.

(** C51.  [n] caches over one memory, any schedule.  If every word is handed over
    properly ([synced], DynSpec.v), then every response, on every cache, is the one
    a single memory would give that executes the requests of all caches one at a
    time in the order of their acceptance. *)
Theorem C51_sequentially_consistent : forall p z n s0 m0 may own ts1 t ts2 m rq rs i y, wf_caches p z n ->
  clients p z n s0 (ts1 ++ t :: ts2) -> mmem p n m0 no_reqs no_resps (ts1 ++ t :: ts2) m rq rs ->
  (forall k, k * 4 < 2 ^ p_abw p -> synced p z n k (may k) (own k) (ts1 ++ t :: ts2)) ->
  (i < n)%nat -> i_req_en (fst (t i)) = true ->
  nth_error (responses (proj i (ts1 ++ t :: ts2))) (length (accepted (proj i ts1))) = Some y ->
  let r := i_req (fst (t i)) in
  cr_type y = cq_type r /\ cr_opq y = cq_opq r /\ cr_len y = cq_len r /\
  cr_data y = snd (flat_exec p (flat_mem p m0 (before n ts1 t i)) r).
Proof. exact (fun p z n s0 m0 may own ts1 t ts2 m rq rs i y W C M => dyn_sc p z n W s0 m0 may own ts1 t ts2 m rq rs i y M C). Qed.
Print Assumptions C51_sequentially_consistent.

(** Word by word, so that other words may be shared without any discipline: the
    bytes of word [k] in the answer to a READ, and the answer to an AMO on it. *)
Theorem C51_read_word : forall p z n s0 m0 k may own ts1 t ts2 m rq rs i y j, wf_caches p z n -> k * 4 < 2 ^ p_abw p ->
  clients p z n s0 (ts1 ++ t :: ts2) -> mmem p n m0 no_reqs no_resps (ts1 ++ t :: ts2) m rq rs ->
  synced p z n k may own (ts1 ++ t :: ts2) -> (i < n)%nat -> i_req_en (fst (t i)) = true ->
  nth_error (responses (proj i (ts1 ++ t :: ts2))) (length (accepted (proj i ts1))) = Some y ->
  let r := i_req (fst (t i)) in
  cq_type r = T_READ -> j < req_bytes p r -> word_num (cq_addr r + j) = k ->
  slice (cr_data y) (8 * j) (8 * j + 8) = trunc 8 (flat_mem p m0 (hist n ts1) (cq_addr r + j)).
Proof.
  exact (fun p z n s0 m0 k may own ts1 t ts2 m rq rs i y j W HK C M S I E N T J K =>
    r2_read _ _ _ _ _ (dyn_resp p z n W k HK s0 m0 may own ts1 t ts2 m rq rs i y M C S I E N) T j J K).
Qed.
Print Assumptions C51_read_word.
Theorem C51_amo_word : forall p z n s0 m0 k may own ts1 t ts2 m rq rs i y, wf_caches p z n -> k * 4 < 2 ^ p_abw p ->
  clients p z n s0 (ts1 ++ t :: ts2) -> mmem p n m0 no_reqs no_resps (ts1 ++ t :: ts2) m rq rs ->
  synced p z n k may own (ts1 ++ t :: ts2) -> (i < n)%nat -> i_req_en (fst (t i)) = true ->
  nth_error (responses (proj i (ts1 ++ t :: ts2))) (length (accepted (proj i ts1))) = Some y ->
  let r := i_req (fst (t i)) in
  amo_word r k -> cr_data y = rd_bytes (flat_mem p m0 (hist n ts1)) (cq_addr r) 4.
Proof.
  exact (fun p z n s0 m0 k may own ts1 t ts2 m rq rs i y W HK C M S I E N T =>
    r2_amo _ _ _ _ _ (dyn_resp p z n W k HK s0 m0 may own ts1 t ts2 m rq rs i y M C S I E N) (proj1 T) (eq_sym (proj2 T))).
Qed.
Print Assumptions C51_amo_word.

(** Once nobody may modify the word, the memory itself holds its value. *)
Theorem C51_memory : forall p z n s0 m0 k may own ts m rq rs a, wf_caches p z n -> k * 4 < 2 ^ p_abw p ->
  clients p z n s0 ts -> mmem p n m0 no_reqs no_resps ts m rq rs -> synced p z n k may own ts ->
  (forall i, (i < n)%nat -> own (length ts) i = false) -> a < 2 ^ p_abw p -> word_num a = k ->
  trunc 8 (m a) = trunc 8 (flat_mem p m0 (hist n ts) a).
Proof. exact (fun p z n s0 m0 k may own ts m rq rs a W HK C M => dyn_mem p z n W k HK s0 m0 may own ts m rq rs a M C). Qed.
Print Assumptions C51_memory.

(** Two caches.  Cache 1 first reads word 6, so it has a copy of the line with
    words 4 and 5.  Cache 0 writes 4 and 5 and flushes; cache 1 invalidates, reads
    4, adds to 5, writes a byte of 4 and flushes; cache 0 invalidates, and then
    both read words 4 and 5. *)
Definition pause (k : nat) : list choice := repeat (mkCh false true true true) k.
Definition prog_d0 : list creq :=
  [ wt 1 0x10 0 0xdeadbeef; wt 2 0x14 2 0xabcd; mkCReq T_FLUSH 3 0 0 0; mkCReq T_INV 4 0 0 0; rd 5 0x14 0; rd 6 0x10 2 ].
Definition prog_d1 : list creq :=
  [ rd 1 0x18 0; mkCReq T_INV 2 0 0 0; rd 3 0x10 0; mkCReq T_AMO_ADD 4 0x14 0 5; wt 5 0x10 1 0x77; mkCReq T_FLUSH 6 0 0 0; rd 7 0x10 0; rd 8 0x14 0 ].
Definition sched_d : list (choice * choice) :=
  combine (lively 20 0 ++ pause 80 ++ lively 40 1) (lively 15 0 ++ pause 20 ++ lively 105 0).
Definition cyc_d (prog1 : list creq) : list cyc := map two (fst (mdrive px z_m sm sm1 mem_a [] [] prog_d0 prog1 sched_d)).
Definition ts_d : list cyc := cyc_d prog_d1.
Definition may_d (k : N) (t i : nat) : bool :=
  if (k =? 4) || (k =? 5) then (if Nat.ltb t 30 then Nat.eqb i 0 else if Nat.ltb t 90 then Nat.eqb i 1 else true)
  else (k =? 6) && Nat.eqb i 1.
Definition own_d (k : N) (t i : nat) : bool :=
  if (k =? 4) || (k =? 5) then (if Nat.ltb t 30 then Nat.eqb i 0 else if Nat.ltb t 90 then Nat.eqb i 1 else false)
  else (k =? 6) && Nat.eqb i 1.
Lemma run_d : clients px z_m 2 st_m ts_d /\ exists m rq rs, mmem px 2 mem_a no_reqs no_resps ts_d m rq rs.
Proof.
  destruct (mdrive_racy px z_m sm sm1 mem_a prog_d0 prog_d1 sched_d) as (C & rq & rs & M); try apply mk_reset_ok; try (apply wf_all; reflexivity).
  split; [exact C|]. exists (snd (mdrive px z_m sm sm1 mem_a [] [] prog_d0 prog_d1 sched_d)), rq, rs. exact M.
Qed.
Lemma words_d : forall i r k, (i < 2)%nat -> In r (accepted (proj i ts_d)) -> touches px r k -> k = 4 \/ k = 5 \/ k = 6.
Proof.
  assert (A : forall i r, (i < 2)%nat -> In r (accepted (proj i ts_d)) -> In r (prog_d0 ++ prog_d1)).
  { assert (A0 : accepted (proj 0 ts_d) = prog_d0) by (vm_compute; reflexivity).
    assert (A1 : accepted (proj 1 ts_d) = prog_d1) by (vm_compute; reflexivity).
    intros [|[|i]] r I H; [rewrite A0 in H | rewrite A1 in H | lia]; apply in_or_app; auto. }
  assert (B : forallb (fun r => (is_amo (cq_type r) || (cq_type r =? T_READ) || (cq_type r =? T_WRITE)) && 
      ((4 <=? word_num (cq_addr r)) && (word_num (cq_addr r + req_bytes px r - 1) <=? 6) && (word_num (cq_addr r) <=? 6)) ||
      (cq_type r =? T_INV) || (cq_type r =? T_FLUSH)) (prog_d0 ++ prog_d1) = true) by (vm_compute; reflexivity).
  rewrite forallb_forall in B. intros i r k I R T. specialize (A i r I R). specialize (B r A). clear A R I.
  rewrite !orb_true_iff, !andb_true_iff, !orb_true_iff, !N.leb_le, !N.eqb_eq in B.
  destruct T as [[TT L] | [IA ->]].
  - destruct B as [[[_ B] | B] | B]; [| destruct TT as [X | X]; rewrite X in B; discriminate B | destruct TT as [X | X]; rewrite X in B; discriminate B].
    set (x := word_num (cq_addr r)) in *. set (y := word_num (cq_addr r + req_bytes px r - 1)) in *. clearbody x y. lia.
  - destruct B as [[[_ B] | B] | B]; [| rewrite B in IA; discriminate IA | rewrite B in IA; discriminate IA].
    set (x := word_num (cq_addr r)) in *. clearbody x. lia.
Qed.
Example C51_example : clients px z_m 2 st_m ts_d /\ (exists m rq rs, mmem px 2 mem_a no_reqs no_resps ts_d m rq rs) /\
  (forall k, synced px z_m 2 k (may_d k) (own_d k) ts_d) /\
  map cr_data (responses (proj 0 ts_d)) = [0; 0; 0; 0; 0xa49dabd2; 0xbe77] /\
  map cr_data (responses (proj 1 ts_d)) = [rd_bytes mem_a 0x18 4; 0; 0xdeadbeef; 0xa49dabcd; 0; 0; 0xdeadbe77; 0xa49dabd2].
Proof.
  split; [apply run_d|]. split; [apply run_d|]. split; [|vm_compute; auto].
  intros k. destruct (N.eq_dec k 4) as [->|N4]; [apply syncedb_ok; vm_compute; reflexivity|].
  destruct (N.eq_dec k 5) as [->|N5]; [apply syncedb_ok; vm_compute; reflexivity|].
  destruct (N.eq_dec k 6) as [->|N6]; [apply syncedb_ok; vm_compute; reflexivity|].
  assert (E : may_d k = (fun _ _ => false) /\ own_d k = fun _ _ => false).
  { unfold may_d, own_d. apply N.eqb_neq in N4, N5, N6. rewrite N4, N5, N6. split; reflexivity. }
  destruct E as [-> ->]. apply synced_none. intros i r I R T. destruct (words_d i r k I R T) as [X | [X | X]]; congruence.
Qed.
(** Nobody may modify word 4 any more: flushed by cache 1 in the first 90 cycles. *)
Example C51_memory_example :
  let ts := firstn 90 ts_d in
  synced px z_m 2 4 (may_d 4) (own_d 4) ts /\ (forall i, own_d 4 (length ts) i = false) /\
  map (flat_mem px mem_a (hist 2 ts)) [0x10; 0x11; 0x12; 0x13] = [0x77; 0xbe; 0xad; 0xde].
Proof. intros ts. split; [apply syncedb_ok; vm_compute; reflexivity|]. split; [intros i; vm_compute; reflexivity|]. vm_compute. reflexivity. Qed.

(** The discipline is needed: cache 0 writes a word and flushes, and both are
    answered within [ts1]; cache 1's READ, accepted after that without an INV,
    returns the old value from the line it happens to hold. *)
Definition stale_d : list cyc := map two (fst (mdrive px z_m sm sm1 mem_a [] [] (firstn 3 prog_d0) [ rd 1 0x18 0; rd 2 0x10 0 ] sched_d)).
Lemma run_stale : clients px z_m 2 st_m stale_d /\ exists m rq rs, mmem px 2 mem_a no_reqs no_resps stale_d m rq rs.
Proof.
  destruct (mdrive_racy px z_m sm sm1 mem_a (firstn 3 prog_d0) [ rd 1 0x18 0; rd 2 0x10 0 ] sched_d) as (C & rq & rs & M); try apply mk_reset_ok; try (apply wf_all; reflexivity).
  split; [exact C|]. eexists _, rq, rs. exact M.
Qed.
Theorem C51_without_inv_refuted : exists p z s0 m0 ts1 ts2 m rq rs A w f r y, wf_caches p z 2 /\
  clients p z 2 s0 (ts1 ++ ts2) /\ mmem p 2 m0 no_reqs no_resps (ts1 ++ ts2) m rq rs /\
  accepted (proj 0 ts1) = w :: A ++ [f] /\ accepted (proj 0 ts2) = [] /\ length (responses (proj 0 ts1)) = length (accepted (proj 0 ts1)) /\
  cq_type w = T_WRITE /\ cq_len w = 0 /\ cq_type f = T_FLUSH /\ (forall v, In v A -> cq_addr v <> cq_addr w) /\
  accepted (proj 1 ts2) = [r] /\ cq_type r = T_READ /\ cq_len r = 0 /\ cq_addr r = cq_addr w /\
  nth_error (responses (proj 1 (ts1 ++ ts2))) (length (accepted (proj 1 ts1))) = Some y /\
  cr_data y = rd_bytes m0 (cq_addr r) 4 /\ cr_data y <> cq_data w.
Proof.
  destruct run_stale as (C & m & rq & rs & M).
  exists px, z_m, st_m, mem_a, (firstn 30 stale_d), (skipn 30 stale_d).
  rewrite firstn_skipn. eexists m, rq, rs, [wt 2 0x14 2 0xabcd], (wt 1 0x10 0 0xdeadbeef), (mkCReq T_FLUSH 3 0 0 0), (rd 2 0x10 0), _.
  split; [apply z_m_wf|]. split; [exact C|]. split; [exact M|].
  repeat (split; [vm_compute; try reflexivity; intros v [<- | []] X; discriminate X|]). vm_compute. discriminate.
Qed.
Print Assumptions C51_without_inv_refuted.
