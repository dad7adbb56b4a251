(** C69: the repository's directed tests of one cache, under every schedule. *)
From Coq Require Import Arith NArith List Bool Lia.
From Verif Require Import Bits Params Msg Rtl Mem Spec System Harness ConformData Conform LiveSpec FlModel Bench Directed.
Import ListNotations.
Open Scope N_scope.

(** C69.  [all_tests]: the tables of GenericTestCases.py, AmoTests.py, InvFlushTests.py
    and OtherCiferTests.py.  For every test in them whose requests are supported ones,
    whatever the delays of source, sink and memory: when the requests accepted
    are the test's (or so far a prefix of them), the responses are the ones written in
    the test (or so far a prefix of them). *)
Theorem C69_directed_tests_pass : forall t, In t all_tests -> Forall (wf_req (t_p t)) (map fst (t_msgs t)) ->
  let p := t_p t in
  forall s0 is m0 m rq rs, sys_run p s0 is m0 m rq rs ->
  (forall a, a < 2 ^ 32 -> trunc 8 (m0 a) = trunc 8 (load_words (t_mem t) a)) ->
  (exists rest, map fst (t_msgs t) = accepted (trace_of p s0 is) ++ rest) ->
  exists rest, map snd (t_msgs t) = responses (trace_of p s0 is) ++ rest.
Proof. exact directed_passes. Qed.
Print Assumptions C69_directed_tests_pass.

(** The test ends: if the source sends whenever the cache is ready, then after enough cycles
    the responses are exactly the ones written in the test. *)
Theorem C69_directed_tests_finish : forall t, In t all_tests -> Forall (wf_req (t_p t)) (map fst (t_msgs t)) ->
  let p := t_p t in let total := length (t_msgs t) in
  forall s0 is is2 m0 m rq rs, sys_run p s0 (is ++ is2) m0 m rq rs ->
  (forall a, a < 2 ^ 32 -> trunc 8 (m0 a) = trunc 8 (load_words (t_mem t) a)) ->
  (exists rest, map fst (t_msgs t) = accepted (trace_of p s0 (is ++ is2)) ++ rest) ->
  (total * (2 * N.to_nat (5 * total_lines p + 3) + 1) <= offer_cycles total [] (trace_of p s0 is))%nat ->
  (2 * N.to_nat (5 * total_lines p + 3) <= productive_cycles (trace_of p s0 is) (trace_of p (fst (run p s0 is)) is2))%nat ->
  responses (trace_of p s0 (is ++ is2)) = map snd (t_msgs t).
Proof. exact directed_finish. Qed.
Print Assumptions C69_directed_tests_finish.

(** More generally, what a test can expect of the cache is a function of its requests and of
    the initial memory alone: the echoed fields, the hit bits of the pseudo-LRU cache and the data of flat memory. *)
Theorem C69_expected_responses : forall p s0 is m0 m rq rs, wf_params p -> sys_run p s0 is m0 m rq rs ->
  exists rest, should p m0 (accepted (trace_of p s0 is)) = responses (trace_of p s0 is) ++ rest.
Proof. exact (fun p s0 is m0 m rq rs W => run_should p W s0 is m0 m rq rs). Qed.
Print Assumptions C69_expected_responses.

(** 60 of the 75 tests meet the hypotheses, among them all the AMO tests and all
    the INV and FLUSH tests; one of them run to its end with a slow environment. *)
Definition t_d : dtest := InvFlushTests_inv_evict_short.
Definition s_d : st := mk_reset (t_p t_d) junk_t junk_d.
Definition is_d : list inp := fst (drive (t_p t_d) s_d (load_words (t_mem t_d)) [] (map fst (t_msgs t_d)) (lively 400 0)).
Example C69_example : length all_tests = 75%nat /\ length (filter (fun t => forallb (fun x => wf_reqb (t_p t) (fst x)) (t_msgs t)) all_tests) = 60%nat /\
  (forall t, In t (tests_AmoTests ++ tests_InvFlushTests ++ tests_OtherCiferTests) -> Forall (wf_req (t_p t)) (map fst (t_msgs t))) /\
  In t_d all_tests /\ Forall (wf_req (t_p t_d)) (map fst (t_msgs t_d)) /\
  (exists m rq rs, sys_run (t_p t_d) s_d is_d (load_words (t_mem t_d)) m rq rs) /\
  accepted (trace_of (t_p t_d) s_d is_d) = map fst (t_msgs t_d) /\ responses (trace_of (t_p t_d) s_d is_d) = map snd (t_msgs t_d).
Proof.
  assert (X : forall t, In t (tests_AmoTests ++ tests_InvFlushTests ++ tests_OtherCiferTests) -> Forall (wf_req (t_p t)) (map fst (t_msgs t))).
  { intros t I. assert (F : forallb (fun t => forallb (wf_reqb (t_p t)) (map fst (t_msgs t))) (tests_AmoTests ++ tests_InvFlushTests ++ tests_OtherCiferTests) = true) by (vm_compute; reflexivity).
    rewrite forallb_forall in F. apply wf_all. exact (F t I). }
  assert (I : In t_d (tests_AmoTests ++ tests_InvFlushTests ++ tests_OtherCiferTests)) by (apply in_or_app; right; apply in_or_app; left; cbn [tests_InvFlushTests In]; tauto).
  split; [vm_compute; reflexivity|]. split; [vm_compute; reflexivity|]. split; [exact X|].
  split; [unfold all_tests; apply in_or_app; right; apply in_app_or in I; apply in_or_app; destruct I as [I|I]; [left; auto|right]; apply in_app_or in I; apply in_or_app; destruct I as [I|I]; [left; auto|right; apply in_or_app; left; auto]|].
  split; [exact (X _ I)|]. split; [do 3 eexists; exact (drive_sys _ (lively 400 0) junk_t junk_d _ _ (X _ I))|].
  split; vm_compute; reflexivity.
Qed.
(** The bounds of the second theorem are met by 81 + 26 cycles. *)
Definition t_e : dtest := AmoTests_amo_ad.
Definition s_e : st := mk_reset (t_p t_e) junk_t junk_d.
Definition is_e : list inp := fst (drive (t_p t_e) s_e (load_words (t_mem t_e)) [] (map fst (t_msgs t_e)) (eager 107)).
Example C69_example_finish : let p := t_p t_e in let is := firstn 81 is_e in let is2 := skipn 81 is_e in
  In t_e all_tests /\ (exists m rq rs, sys_run p s_e (is ++ is2) (load_words (t_mem t_e)) m rq rs) /\
  accepted (trace_of p s_e (is ++ is2)) = map fst (t_msgs t_e) /\
  (length (t_msgs t_e) * (2 * N.to_nat (5 * total_lines p + 3) + 1) <= offer_cycles (length (t_msgs t_e)) [] (trace_of p s_e is))%nat /\
  (2 * N.to_nat (5 * total_lines p + 3) <= productive_cycles (trace_of p s_e is) (trace_of p (fst (run p s_e is)) is2))%nat.
Proof.
  intros p is is2. assert (I : In t_e (tests_AmoTests ++ tests_InvFlushTests ++ tests_OtherCiferTests)) by (apply in_or_app; left; cbn [tests_AmoTests In]; tauto).
  split; [unfold all_tests; apply in_or_app; right; apply in_or_app; left; cbn [tests_AmoTests In]; tauto|].
  split; [unfold is, is2; rewrite firstn_skipn; do 3 eexists; exact (drive_sys _ (eager 107) junk_t junk_d _ _ (proj1 (proj2 (proj2 C69_example)) _ I))|].
  split; [vm_compute; reflexivity|]. split; apply Nat.leb_le; vm_compute; reflexivity.
Qed.
