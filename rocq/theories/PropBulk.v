(** C52: multi-cache tests without races pass, in every run. *)
From Coq Require Import Arith NArith List Bool Lia Sorted.
From Verif Require Import Bits Params ParamsProofs Msg Rtl Mem Spec System Harness Traffic FlModel MultiSys MultiHarness Hide DynSpec Multicore
  BulkSpec BulkProofs BulkMore MultiData BulkHarness.
Import ListNotations.
Open Scope N_scope.

(** C52.  A test is a list of messages (cache, order, request).  The caches get
    them as [released] says: each its own, in the order of the list, a message only when those of
    smaller order are answered; otherwise any schedule.  If no word has a race,
    the responses of every cache are, one by one, those of executing the messages
    one at a time in the order of the list, on one memory ([expected]). *)
Theorem C52_race_free_tests_pass : forall p z n s0 m0 M ts m rq rs i, wf_caches p z n -> test_ok p n M ->
  (forall k, k * 4 < 2 ^ p_abw p -> race_free p z n k M) ->
  clients p z n s0 ts -> mmem p n m0 no_reqs no_resps ts m rq rs -> released n M ts -> (i < n)%nat ->
  exists rest, for_cache i M (expected p z m0 [] M) = responses (proj i ts) ++ rest.
Proof. exact (fun p z n s0 m0 M ts m rq rs i W => bulk_expected p z n W s0 m0 M ts m rq rs i). Qed.
Print Assumptions C52_race_free_tests_pass.

(** MulticoreModel releases the messages in this way. *)
Theorem C52_multicore_model : forall p z n s0 m0 M ts gs m rq rs i, wf_caches p z n -> test_ok p n M -> txs_ok n (map fst M) ->
  (forall k, k * 4 < 2 ^ p_abw p -> race_free p z n k M) ->
  clients p z n s0 ts -> mmem p n m0 no_reqs no_resps ts m rq rs -> driven n M ts gs -> (i < n)%nat ->
  exists rest, for_cache i M (expected p z m0 [] M) = responses (proj i ts) ++ rest.
Proof.
  exact (fun p z n s0 m0 M ts gs m rq rs i W OK TX RF CL MM DR =>
    bulk_expected p z n W s0 m0 M ts m rq rs i OK RF CL MM (driven_released p z n W s0 m0 M ts gs m rq rs CL MM DR TX)).
Qed.
Print Assumptions C52_multicore_model.

(** The repository's own multi-cache tests (MultiData.v, read from
    MultiCacheTestCases.py) with the responses written there: no run, whatever the
    memory latency, the delays of sources and sinks, and the interleaving of the caches
    at the memory, gives another response. *)
Theorem C52_directed_tests : forall t s0 m0 ts gs m rq rs i, In t multi_tests ->
  let p := mt_p t in let z := mt_z t in let n := mt_n t in let M := map fst (mt_msgs t) in
  clients p z n s0 ts -> mmem p n m0 no_reqs no_resps ts m rq rs -> driven n M ts gs ->
  (forall a, a < 2 ^ 32 -> trunc 8 (m0 a) = trunc 8 (load_words multicache_mem a)) -> (i < n)%nat ->
  exists rest, for_cache i M (map snd (mt_msgs t)) = responses (proj i ts) ++ rest.
Proof. exact directed_pass. Qed.
Print Assumptions C52_directed_tests.

(** A run of the flush/invalidate test that meets the hypotheses and finishes: sources send
    as soon as they may in most cycles; the memory answers at different speeds. *)
Definition p2 : params := mt_p inv_fl_2c.
Definition z2 : nat -> N * N := mt_z inv_fl_2c.
Definition M2 : list msg := map fst (mt_msgs inv_fl_2c).
Definition prog_b (i : nat) : list creq := map m_req (of_cache i M2).
Definition s2 : st := mk_reset p2 junk_t junk_d.
Definition hold (k : nat) : list choice := repeat (mkCh false true true true) k.
Definition sched_b : list (choice * choice) := combine (lively 12 0 ++ hold 48 ++ lively 40 1) (lively 60 1 ++ hold 40).
Definition ts_b : list cyc := map two (fst (mdrive p2 z2 s2 s2 (load_words multicache_mem) [] [] (prog_b 0) (prog_b 1) sched_b)).
Definition gs_b : list (nat -> bool) := map (fun t i => i_req_en (fst (t i))) ts_b.
Lemma run_b : clients p2 z2 2 (fun _ => s2) ts_b /\ exists m rq rs, mmem p2 2 (load_words multicache_mem) no_reqs no_resps ts_b m rq rs.
Proof.
  destruct (mdrive_racy p2 z2 s2 s2 (load_words multicache_mem) (prog_b 0) (prog_b 1) sched_b) as (C & rq & rs & M); try apply mk_reset_ok; try (apply wf_all; reflexivity).
  split; [|eexists _, rq, rs; exact M]. intros i I. pose proof (C i I) as A. destruct i as [|[|i]]; exact A.
Qed.
Example C52_example : In inv_fl_2c multi_tests /\ clients p2 z2 2 (fun _ => s2) ts_b /\
  (exists m rq rs, mmem p2 2 (load_words multicache_mem) no_reqs no_resps ts_b m rq rs) /\ driven 2 M2 ts_b gs_b /\ released 2 M2 ts_b /\
  (forall k, race_free p2 z2 2 k M2) /\ test_ok p2 2 M2 /\ txs_ok 2 (map fst M2) /\
  responses (proj 0 ts_b) = for_cache 0 M2 (map snd (mt_msgs inv_fl_2c)) /\ responses (proj 1 ts_b) = for_cache 1 M2 (map snd (mt_msgs inv_fl_2c)).
Proof.
  assert (IN : In inv_fl_2c multi_tests) by (right; right; left; reflexivity).
  destruct run_b as (C & m & rq & rs & MM).
  assert (DR : driven 2 M2 ts_b gs_b) by (apply drivenb_ok; vm_compute; reflexivity).
  pose proof multi_tests_ok as F. rewrite Forall_forall in F. destruct (F _ IN) as (W & OK & TX & RF & EX).
  split; [exact IN|]. split; [exact C|]. split; [exists m, rq, rs; exact MM|]. split; [exact DR|].
  split; [exact (driven_released p2 z2 2 W _ _ M2 ts_b gs_b m rq rs C MM DR TX)|].
  split; [exact RF|]. split; [exact OK|]. split; [exact TX|]. vm_compute. auto.
Qed.

(** With races the responses may be others: cache 0 writes a word and flushes,
    cache 1 reads it, all of order 0. *)
Definition M_r : list msg := [ (0%nat, 0, mkCReq T_WRITE 0 0 0 7); (0%nat, 0, mkCReq T_FLUSH 0 0 0 0); (1%nat, 0, mkCReq T_READ 0 0 0 0) ].
Definition ts_r : list cyc := map two (fst (mdrive p2 z2 s2 s2 (load_words multicache_mem) [] [] (map m_req (of_cache 0 M_r)) (map m_req (of_cache 1 M_r)) (combine (lively 30 0) (lively 30 0)))).
Theorem C52_race_refuted : exists p z s0 m0 M ts gs m rq rs, wf_caches p z 2 /\ test_ok p 2 M /\ txs_ok 2 (map fst M) /\
  clients p z 2 s0 ts /\ mmem p 2 m0 no_reqs no_resps ts m rq rs /\ driven 2 M ts gs /\ released 2 M ts /\
  ~ exists rest, for_cache 1 M (expected p z m0 [] M) = responses (proj 1 ts) ++ rest.
Proof.
  destruct (mdrive_racy p2 z2 s2 s2 (load_words multicache_mem) (map m_req (of_cache 0 M_r)) (map m_req (of_cache 1 M_r)) (combine (lively 30 0) (lively 30 0)))
    as (C & rq & rs & MM); try apply mk_reset_ok; try (apply wf_all; reflexivity).
  assert (DR : driven 2 M_r ts_r (map (fun t i => i_req_en (fst (t i))) ts_r)) by (apply drivenb_ok; vm_compute; reflexivity).
  assert (W : wf_caches p2 z2 2).
  { intros i I. destruct i as [|[|i]]; try (exfalso; lia); (constructor; [cbn; auto | exists 7; split; [reflexivity | lia] | cbn; auto | cbn; lia | exists 1; split; [lia | reflexivity] | reflexivity]). }
  assert (TX : txs_ok 2 (map fst M_r)) by (split; [repeat (apply Forall_cons || apply Forall_nil); (split; [cbn; lia | reflexivity]) | reflexivity]).
  eexists p2, z2, _, _, M_r, ts_r, _, _, rq, rs. split; [exact W|].
  split; [constructor; [repeat (apply Forall_cons || apply Forall_nil); (split; [cbn; lia | apply wf_reqb_ok; reflexivity])
                            |repeat (apply SSorted_cons || apply SSorted_nil); repeat (apply Forall_cons || apply Forall_nil); cbn; lia]|].
  split; [exact TX|]. split; [exact C|]. split; [exact MM|]. split; [exact DR|].
  split; [exact (driven_released p2 z2 2 W _ _ M_r ts_r _ _ rq rs C MM DR TX)|].
  assert (R : responses (proj 1 ts_r) = [mkCResp 0 0 0 0 0]) by (vm_compute; reflexivity).
  assert (E : for_cache 1 M_r (expected p2 z2 (load_words multicache_mem) [] M_r) = [mkCResp 0 0 0 0 7]) by (vm_compute; reflexivity).
  rewrite R. intros (rest & X). rewrite E in X. discriminate X.
Qed.
