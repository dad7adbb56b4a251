(** C53: programs and tests finish. *)
From Coq Require Import Arith NArith List Bool Lia Sorted.
From Verif Require Import Bits Params ParamsProofs Msg Rtl Mem Spec System Harness Traffic FlModel MultiSys MultiHarness Hide DynSpec Multicore
  SysProofs Proto BulkSpec BulkProofs BulkMore MultiData BulkHarness PropBulk LiveSpec Live LiveMulti.
Import ListNotations.
Open Scope N_scope.

(** C53.  The memory is any that answers each request once, in order, with the right
    type (C49; in particular the ideal one).  After enough productive cycles in which the
    client sends nothing, the cache is ready for a request whenever both of its sides are. *)
Theorem C53_ready_again : forall p is is2 i s0, wf_params p -> proto_run p s0 (is ++ is2) ->
  accepted (trace_of p (fst (run p s0 is)) is2) = [] ->
  (2 * N.to_nat (5 * total_lines p + 3) <= productive_cycles (trace_of p s0 is) (trace_of p (fst (run p s0 is)) is2))%nat ->
  i_resp_rdy i && i_mreq_rdy i = true ->
  o_req_rdy (output p (fst (run p s0 (is ++ is2))) i) = true.
Proof. exact (fun p is is2 i s0 W => proto_ready p W is is2 i s0). Qed.
Print Assumptions C53_ready_again.

(** A client with [total] requests to make that does not decline to send when the cache is ready
    gets all of them accepted after a bounded number of productive cycles, *)
Theorem C53_accepted : forall p total is s0, wf_params p -> proto_run p s0 is ->
  (total * (2 * N.to_nat (5 * total_lines p + 3) + 1) <= offer_cycles total [] (trace_of p s0 is))%nat ->
  (total <= length (accepted (trace_of p s0 is)))%nat.
Proof. exact (fun p total is s0 W => proto_accepts p W total is s0). Qed.
Print Assumptions C53_accepted.

(** and all of them answered. *)
Theorem C53_program_finishes : forall p total is is2 s0, wf_params p -> proto_run p s0 (is ++ is2) ->
  (total * (2 * N.to_nat (5 * total_lines p + 3) + 1) <= offer_cycles total [] (trace_of p s0 is))%nat ->
  (2 * N.to_nat (5 * total_lines p + 3) <= productive_cycles (trace_of p s0 is) (trace_of p (fst (run p s0 is)) is2))%nat ->
  (total <= length (responses (trace_of p s0 (is ++ is2))))%nat.
Proof. exact (fun p total is is2 s0 W => proto_completes p W total is is2 s0). Qed.
Print Assumptions C53_program_finishes.

(** Several caches driven by MulticoreModel: whatever the messages (with races or without) and the
    interleaving, every message is sent and answered, once there have been enough rounds
    ([LiveSpec.round]: every cache gets some productive cycles, and then a cycle in which it and its source could go on). *)
Theorem C53_multicore_finishes : forall p z n s0 m0 M ts gs m rq rs i, wf_caches p z n ->
  clients p z n s0 ts -> mmem p n m0 no_reqs no_resps ts m rq rs -> driven n M ts gs -> txs_ok n (map fst M) -> sendable n M ->
  rounds p z n (rounds_for M) [] (combine ts gs) -> (i < n)%nat ->
  length (responses (proj i ts)) = length (of_cache i M) /\ accepted (proj i ts) = map m_req (of_cache i M).
Proof. exact model_completes. Qed.
Print Assumptions C53_multicore_finishes.

(** The same in cycles, if the caches' outputs are always taken, memory answers within
    [L] and the sources delay at most [D] cycles; [X]: the most lines a cache has. *)
Theorem C53_multicore_latency : forall p z n X L D s0 m0 M ts gs m rq rs i, wf_caches p z n ->
  clients p z n s0 ts -> mmem p n m0 no_reqs no_resps ts m rq rs -> driven n M ts gs -> txs_ok n (map fst M) -> sendable n M ->
  (forall i, (i < n)%nat -> total_lines (sized p z i) <= X) ->
  (forall i, (i < n)%nat -> Forall (fun io => i_resp_rdy (fst io) && i_mreq_rdy (fst io) = true) (proj i ts) /\
     answers_within L [] (proj i ts) /\ delay_within D i gs) ->
  (rounds_for M * (2 * N.to_nat (5 * X + 3) * (L + 1) + D + 1) <= length ts)%nat -> (i < n)%nat ->
  length (responses (proj i ts)) = length (of_cache i M) /\ accepted (proj i ts) = map m_req (of_cache i M).
Proof. exact model_completes_latency. Qed.
Print Assumptions C53_multicore_latency.

(** Race-free tests (C52) finish with exactly the expected responses, *)
Theorem C53_race_free_tests_finish : forall p z n s0 m0 M ts gs m rq rs i, wf_caches p z n -> test_ok p n M -> txs_ok n (map fst M) ->
  (forall k, k * 4 < 2 ^ p_abw p -> race_free p z n k M) ->
  clients p z n s0 ts -> mmem p n m0 no_reqs no_resps ts m rq rs -> driven n M ts gs ->
  rounds p z n (rounds_for M) [] (combine ts gs) -> (i < n)%nat ->
  responses (proj i ts) = for_cache i M (expected p z m0 [] M).
Proof. exact tests_finish. Qed.
Print Assumptions C53_race_free_tests_finish.

(** the repository's multi-cache tests with the responses written there. *)
Theorem C53_directed_tests_finish : forall t s0 m0 ts gs m rq rs i, In t multi_tests ->
  let p := mt_p t in let z := mt_z t in let n := mt_n t in let M := map fst (mt_msgs t) in
  clients p z n s0 ts -> mmem p n m0 no_reqs no_resps ts m rq rs -> driven n M ts gs ->
  (forall a, a < 2 ^ 32 -> trunc 8 (m0 a) = trunc 8 (load_words multicache_mem a)) ->
  rounds p z n (rounds_for M) [] (combine ts gs) -> (i < n)%nat ->
  responses (proj i ts) = for_cache i M (map snd (mt_msgs t)).
Proof.
  intros t s0 m0 ts gs m rq rs i IN p z n M CL MM DR AG RO I.
  pose proof multi_tests_ok as F. rewrite Forall_forall in F. destruct (F t IN) as (W & OK & TX & RF & EX).
  destruct (directed_pass t s0 m0 ts gs m rq rs i IN CL MM DR AG I) as (rest & E).
  destruct (model_completes p z n s0 m0 M ts gs m rq rs i W CL MM DR TX (test_sendable p n M OK) RO I) as [L _].
  pose proof (f_equal (@length _) E) as LE. fold M in LE. unfold M in LE. rewrite app_length, for_cache_length in LE by (rewrite !map_length; auto).
  fold M in LE. rewrite L in LE. destruct rest; [fold M in E; rewrite E, app_nil_r; auto | cbn [length] in LE; lia].
Qed.
Print Assumptions C53_directed_tests_finish.

(** Why [sendable] is needed: when a message of a cache is followed by one of smaller
    order for the same cache, it is never sent. *)
Theorem C53_unsorted_never_sent : forall p z n s0 m0 M ts gs m rq rs, wf_caches p z n ->
  clients p z n s0 ts -> mmem p n m0 no_reqs no_resps ts m rq rs -> driven n M ts gs -> txs_ok n (map fst M) ->
  forall i j j' x x', (i < n)%nat -> nth_error (of_cache i M) j = Some x -> nth_error (of_cache i M) j' = Some x' -> (j < j')%nat ->
  m_ord x' < m_ord x -> (length (accepted (proj i ts)) <= j)%nat.
Proof. exact unsorted_stuck. Qed.
Print Assumptions C53_unsorted_never_sent.

(** The flush/invalidate test for two caches, with a schedule long enough. *)
Definition sched_l : list (choice * choice) := combine (eager 12 ++ hold 7 ++ eager 500) (eager 600).
Definition ts_l : list cyc := map two (fst (mdrive p2 z2 s2 s2 (load_words multicache_mem) [] [] (prog_b 0) (prog_b 1) sched_l)).
Lemma run_l : clients p2 z2 2 (fun _ => s2) ts_l /\ exists m rq rs, mmem p2 2 (load_words multicache_mem) no_reqs no_resps ts_l m rq rs.
Proof.
  destruct (mdrive_racy p2 z2 s2 s2 (load_words multicache_mem) (prog_b 0) (prog_b 1) sched_l) as (C & rq & rs & M); try apply mk_reset_ok; try (apply wf_all; reflexivity).
  split; [|eexists _, rq, rs; exact M]. intros i I. pose proof (C i I) as A. destruct i as [|[|i]]; exact A.
Qed.
Lemma checks_l : drivenb 2 M2 (norm 2 (mc_reset (map fst M2))) (combine ts_l (map (fun _ _ => true) ts_l)) = true /\ length ts_l = 519%nat /\
  productive_cycles [] (proj 0 ts_l) = 519%nat /\ productive_cycles [] (proj 1 ts_l) = 519%nat.
Proof. vm_compute. auto. Qed.
Lemma always_ready : forall ts, productive_cycles [] (proj 0 ts) = length ts -> productive_cycles [] (proj 1 ts) = length ts ->
  forall i, (i < 2)%nat -> Forall (fun io => i_resp_rdy (fst io) && i_mreq_rdy (fst io) = true) (proj i ts) /\
     answers_within 0 [] (proj i ts) /\ delay_within 0 i (map (fun _ _ => true) ts).
Proof.
  intros ts P0 P1 i I.
  assert (PI : productive_cycles [] (proj i ts) = length (proj i ts)) by (unfold proj at 2; rewrite map_length; destruct i as [|[|i]]; auto; lia).
  destruct (all_productive _ _ PI) as [X Y]. split; [|split]; auto.
  intros g1 [|g [|? ?]] g3 E L; try discriminate L. cbn [existsb]. rewrite orb_false_r.
  assert (IN : In g (map (fun (_ : cyc) (_ : nat) => true) ts)) by (rewrite E; apply in_or_app; right; left; auto). apply in_map_iff in IN. destruct IN as (? & <- & _). auto.
Qed.
Lemma lines_l : forall i, (i < 2)%nat -> total_lines (sized p2 z2 i) <= total_lines p2.
Proof. intros [|[|i]] I; [vm_compute; discriminate | vm_compute; discriminate | lia]. Qed.
Lemma size_l : Nat.leb (rounds_for M2 * (2 * N.to_nat (5 * total_lines p2 + 3) * (0 + 1) + 0 + 1)) 519 = true.
Proof. vm_compute. reflexivity. Qed.
Lemma example_l : forall ts, (clients p2 z2 2 (fun _ => s2) ts /\ exists m rq rs, mmem p2 2 (load_words multicache_mem) no_reqs no_resps ts m rq rs) ->
  drivenb 2 M2 (norm 2 (mc_reset (map fst M2))) (combine ts (map (fun _ _ => true) ts)) = true /\ length ts = 519%nat /\
  productive_cycles [] (proj 0 ts) = 519%nat /\ productive_cycles [] (proj 1 ts) = 519%nat ->
  clients p2 z2 2 (fun _ => s2) ts /\ (exists m rq rs, mmem p2 2 (load_words multicache_mem) no_reqs no_resps ts m rq rs) /\
  driven 2 M2 ts (map (fun _ _ => true) ts) /\ txs_ok 2 (map fst M2) /\ sendable 2 M2 /\ rounds p2 z2 2 (rounds_for M2) [] (combine ts (map (fun _ _ => true) ts)) /\
  (forall i, (i < 2)%nat -> Forall (fun io => i_resp_rdy (fst io) && i_mreq_rdy (fst io) = true) (proj i ts) /\
     answers_within 0 [] (proj i ts) /\ delay_within 0 i (map (fun _ _ => true) ts)) /\
  (rounds_for M2 * (2 * N.to_nat (5 * total_lines p2 + 3) * (0 + 1) + 0 + 1) <= length ts)%nat.
Proof.
  pose proof multi_tests_ok as F. rewrite Forall_forall in F. destruct (F inv_fl_2c ltac:(right; right; left; reflexivity)) as (W & OK & TX & _ & _). clear F.
  intros ts (C & m & rq & rs & MM) (DB & LT & P0 & P1). rewrite <- LT in P0, P1.
  assert (LG : length (map (fun (_ : cyc) (_ : nat) => true) ts) = length ts) by apply map_length.
  pose proof (always_ready ts P0 P1) as A.
  assert (LE : (rounds_for M2 * (2 * N.to_nat (5 * total_lines p2 + 3) * (0 + 1) + 0 + 1) <= length ts)%nat).
  { rewrite LT. apply Nat.leb_le. exact size_l. }
  split; [exact C|]. split; [exists m, rq, rs; exact MM|]. split; [apply drivenb_ok; [exact LG | exact DB]|]. split; [exact TX|]. split; [exact (test_sendable _ _ _ OK)|].
  split; [exact (latency_rounds p2 z2 2 _ 0 0 (rounds_for M2) ts _ LG lines_l A LE)|]. split; [exact A | exact LE].
Qed.
Example C53_example : clients p2 z2 2 (fun _ => s2) ts_l /\ (exists m rq rs, mmem p2 2 (load_words multicache_mem) no_reqs no_resps ts_l m rq rs) /\
  driven 2 M2 ts_l (map (fun _ _ => true) ts_l) /\ txs_ok 2 (map fst M2) /\ sendable 2 M2 /\ rounds p2 z2 2 (rounds_for M2) [] (combine ts_l (map (fun _ _ => true) ts_l)) /\
  (forall i, (i < 2)%nat -> Forall (fun io => i_resp_rdy (fst io) && i_mreq_rdy (fst io) = true) (proj i ts_l) /\
     answers_within 0 [] (proj i ts_l) /\ delay_within 0 i (map (fun _ _ => true) ts_l)) /\
  (rounds_for M2 * (2 * N.to_nat (5 * total_lines p2 + 3) * (0 + 1) + 0 + 1) <= length ts_l)%nat.
Proof. exact (example_l ts_l run_l checks_l). Qed.

(** A program of 16 requests on one cache: requests are offered in most cycles. *)
Example C53_program_example : proto_run px (s0_a px) (is_a px prog_a (lively 150 0)) /\
  (2 * (2 * N.to_nat (5 * total_lines px + 3) + 1) <= offer_cycles 2 [] (trace_of px (s0_a px) (is_a px prog_a (lively 150 0))))%nat /\
  length (responses (trace_of px (s0_a px) (is_a px prog_a (lively 150 0)))) = 16%nat.
Proof.
  split; [eapply sys_proto; apply run_a; apply wf_all; reflexivity|]. split; [|vm_compute; reflexivity]. apply Nat.leb_le. vm_compute. reflexivity.
Qed.

(** Messages in the wrong order. *)
Definition M_u : list msg := [ (0%nat, 1, rd 0 0 0); (0%nat, 0, rd 1 0 0) ].
Definition ts_u : list cyc := map two (fst (mdrive p2 z2 s2 s2 (load_words multicache_mem) [] [] [] [] (combine (eager 200) (eager 200)))).
Lemma run_u : clients p2 z2 2 (fun _ => s2) ts_u /\ exists m rq rs, mmem p2 2 (load_words multicache_mem) no_reqs no_resps ts_u m rq rs.
Proof.
  destruct (mdrive_racy p2 z2 s2 s2 (load_words multicache_mem) [] [] (combine (eager 200) (eager 200))) as (C & rq & rs & M); try apply mk_reset_ok; try (apply wf_all; reflexivity).
  split; [|eexists _, rq, rs; exact M]. intros i I. pose proof (C i I) as A. destruct i as [|[|i]]; exact A.
Qed.
Example C53_unsorted_example : clients p2 z2 2 (fun _ => s2) ts_u /\ (exists m rq rs, mmem p2 2 (load_words multicache_mem) no_reqs no_resps ts_u m rq rs) /\
  driven 2 M_u ts_u (map (fun _ _ => true) ts_u) /\ txs_ok 2 (map fst M_u) /\ forallb (fun io => o_req_rdy (snd io)) (skipn 10 (proj 0 ts_u)) = true.
Proof.
  pose proof run_u as (C & MM). split; [exact C|]. split; [exact MM|].
  split; [apply drivenb_ok; [apply map_length | vm_compute; reflexivity]|].
  split; [split; [repeat (apply Forall_cons || apply Forall_nil); (split; [cbn; lia | reflexivity]) | reflexivity] | vm_compute; reflexivity].
Qed.
