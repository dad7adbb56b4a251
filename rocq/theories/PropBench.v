(** C44: the repository's random tests against the reference model. *)
From Coq Require Import PeanoNat NArith List Bool Lia.
From Verif Require Import Bits Params Msg Rtl Mem Spec System Harness Fl FlModel Bench.
Import ListNotations.
Open Scope N_scope.

(** C44.  Property-based test, any of its configurations, any memory contents and
    any transactions it can draw: the reference model raises no exception,
    the requests are supported ones, and under every schedule of source, sink and
    memory (with the same initial contents) the RTL cache's responses to (a prefix of)
    the requests are (a prefix of) the expected ones. *)
Theorem C44_hypothesis_test : forall p w ds, hyp_config p -> (length ds <= 200)%nat ->
  Forall (drawable p 0 (p_num_bytes p / 4 * 2 * p_assoc p)) ds ->
  exists xs, hyp_bench p w ds = Some xs /\ length xs = length ds /\ Forall (wf_req p) (map fst xs) /\
    forall s0 is m0 m rq rs, sys_run p s0 is m0 m rq rs ->
    (forall a, a < 2 ^ 32 -> trunc 8 (m0 a) = trunc 8 (load_words (rand_mem 0 (p_num_bytes p / 4 * 2 * p_assoc p) w) a)) ->
    (exists rest, map fst xs = accepted (trace_of p s0 is) ++ rest) ->
    exists rest, map snd xs = responses (trace_of p s0 is) ++ rest.
Proof. exact hyp_sound. Qed.
Print Assumptions C44_hypothesis_test.

(** The same for the random tests: any supported configuration whose addresses stay
    within the 64 KiB of initial memory, any number of transactions. *)
Theorem C44_random_test : forall p w ds, wf_params p -> p_abw p = 32 -> p_obw p = 8 ->
  p_num_bytes p / 4 * 3 * p_assoc p <= 0xffff -> Forall (drawable p 0 (p_num_bytes p / 4 * 3 * p_assoc p)) ds ->
  exists xs, rnd_bench p w ds = Some xs /\ length xs = length ds /\ Forall (wf_req p) (map fst xs) /\
    forall s0 is m0 m rq rs, sys_run p s0 is m0 m rq rs ->
    (forall a, a < 2 ^ 32 -> trunc 8 (m0 a) = trunc 8 (load_words (rand_mem 0 0xffff w) a)) ->
    (exists rest, map fst xs = accepted (trace_of p s0 is) ++ rest) ->
    exists rest, map snd xs = responses (trace_of p s0 is) ++ rest.
Proof. exact rnd_sound. Qed.
Print Assumptions C44_random_test.

(** And the test ends: once all requests are in, enough productive cycles bring
    out exactly the expected responses. *)
Theorem C44_test_passes : forall p w ds xs, hyp_config p -> (length ds <= 200)%nat ->
  Forall (drawable p 0 (p_num_bytes p / 4 * 2 * p_assoc p)) ds -> hyp_bench p w ds = Some xs ->
  forall s0 is is2 m0 m rq rs, sys_run p s0 (is ++ is2) m0 m rq rs ->
  (forall a, a < 2 ^ 32 -> trunc 8 (m0 a) = trunc 8 (load_words (rand_mem 0 (p_num_bytes p / 4 * 2 * p_assoc p) w) a)) ->
  accepted (trace_of p s0 is) = map fst xs -> accepted (trace_of p s0 (is ++ is2)) = map fst xs ->
  (2 * N.to_nat (5 * total_lines p + 3) <= productive_cycles (trace_of p s0 is) (trace_of p (fst (run p s0 is)) is2))%nat ->
  responses (trace_of p s0 (is ++ is2)) = map snd xs.
Proof. exact hyp_passes. Qed.
Print Assumptions C44_test_passes.

(** 2 ways, 2 sets of 16-byte lines; one transaction of each kind, one at the top
    of the address range. *)
Definition p_b : params := hyp_params 2 128 64 2.
Definition w_b (j : nat) : N := 0x01010101 * N.of_nat j.
Definition ds_b : list draw :=
  [mkDraw T_READ 0 0x17 3; mkDraw T_WRITE 0xdeadbeef 0x13 1; mkDraw T_READ 0 0x10 2; mkDraw T_AMO_ADD 0xffffffff 0x12 0;
   mkDraw T_READ 0 64 3; mkDraw T_AMO_MAXU 7 64 0; mkDraw T_FLUSH 0 0 0; mkDraw T_READ 0 0x13 0; mkDraw T_INV 0 0 0;
   mkDraw T_WRITE 0x1234 0x31 2; mkDraw T_READ 0 0x36 3].
Definition xs_b : list (creq * cresp) := match hyp_bench p_b w_b ds_b with Some xs => xs | None => [] end.
Definition is_b : list inp := fst (drive p_b (mk_reset p_b junk_t junk_d) (load_words (rand_mem 0 64 w_b)) [] (map fst xs_b) (lively 300 0)).
Lemma drawable_b : Forall (drawable p_b 0 64) ds_b.
Proof.
  unfold ds_b. repeat apply Forall_cons; try apply Forall_nil;
    (split; [cbn [d_type In]; repeat (first [left; reflexivity | right])|split; [|split; [split|]]]; vm_compute; discriminate).
Qed.
Example C44_example : hyp_config p_b /\ p_num_bytes p_b / 4 * 2 * p_assoc p_b = 64 /\ Forall (drawable p_b 0 64) ds_b /\
  hyp_bench p_b w_b ds_b = Some xs_b /\
  (exists m rq rs, sys_run p_b (mk_reset p_b junk_t junk_d) is_b (load_words (rand_mem 0 64 w_b)) m rq rs) /\
  accepted (trace_of p_b (mk_reset p_b junk_t junk_d) is_b) = map fst xs_b /\
  responses (trace_of p_b (mk_reset p_b junk_t junk_d) is_b) = map snd xs_b /\
  map (fun x => (cr_test (snd x), cr_data (snd x))) xs_b =
    [(0, 0x0505050504040404); (1, 0); (1, 0xbeef0404); (0, 0xbeef0404); (0, 0x10101010); (0, 0x10101010); (0, 0); (0, 0xbe); (0, 0); (0, 0); (1, 0x0d0d0d0d00001234)].
Proof.
  split; [exists 2, 128, 64, 1; repeat split; auto; try discriminate; cbn; tauto|].
  split; [vm_compute; reflexivity|]. split; [exact drawable_b|]. split; [vm_compute; reflexivity|].
  split; [|split; [vm_compute; reflexivity|split; vm_compute; reflexivity]].
  assert (WF : Forall (wf_req p_b) (map fst xs_b)) by (apply wf_all; vm_compute; auto).
  do 3 eexists. exact (drive_sys p_b (lively 300 0) junk_t junk_d (load_words (rand_mem 0 64 w_b)) (map fst xs_b) WF).
Qed.
