(** C70: WRITE_INIT in a cache with one way (in a cache with two ways it does not
    work: PropFaults.v, C27). *)
From Coq Require Import NArith List Bool Lia.
From Verif Require Import Bits Params Msg Rtl Mem Spec System Traffic Hide Harness FlModel ConformData Conform Directed InitSpec Init3 Init4.
Import ListNotations.
Open Scope N_scope.

(** Clients that mix WRITE_INITs with any other requests, whatever memory answers and
    whatever the timing of either side: each response is the one promised from what the
    responses so far and the requests tell: a WRITE_INIT is answered with test 0 and
    data 0 without disturbing other lines, its bytes and every other byte
    known are read back for as long as the line is in the cache, and what is in the
    cache and what is not (the test bit) is known exactly. *)
Theorem C70_init_responses : forall p s0 is, wf_params p -> p_assoc p = 1 -> init_run p s0 is ->
  explained p know0 (accepted (trace_of p s0 is)) (responses (trace_of p s0 is)).
Proof. intros p s0 is W A1. exact (init_explained p W A1 s0 is). Qed.
Print Assumptions C70_init_responses.

(** A memory request belongs to the one request that is unanswered, and that is no
    WRITE_INIT, no INV, and no READ or WRITE of a line known to be in the cache:
    WRITE_INIT never uses memory, and saves the accesses after it from using it. *)
Theorem C70_init_no_memory : forall p s0 is t1 io t2 m, wf_params p -> p_assoc p = 1 -> init_run p s0 is ->
  trace_of p s0 is = t1 ++ io :: t2 -> o_mreq (snd io) = Some m ->
  exists A r, accepted t1 = A ++ [r] /\ length A = length (responses t1) /\
    needs_memory p (knows p know0 A (responses t1)) r = true.
Proof. intros p s0 is t1 io t2 m W A1. exact (init_mreq p W A1 s0 is t1 io t2 m). Qed.
Print Assumptions C70_init_no_memory.

(** In particular, what a WRITE_INIT wrote is what a READ after it returns, and the READ hits. *)
Theorem C70_init_read_back : forall p s0 is A r1 r2, wf_params p -> p_assoc p = 1 -> init_run p s0 is ->
  let tr := trace_of p s0 is in
  accepted tr = A ++ [r1; r2] -> length (responses tr) = length (accepted tr) ->
  cq_type r1 = T_INIT -> cq_type r2 = T_READ -> cq_addr r2 = cq_addr r1 -> cq_len r2 = cq_len r1 ->
  exists Y y, responses tr = Y ++ [y] /\ cr_opq y = cq_opq r2 /\ cr_test y = 1 /\
    cr_data y = trunc (8 * req_bytes p r2) (trunc (p_dbw p) (cq_data r1)).
Proof. intros p s0 is A r1 r2 W A1. exact (init_read_back p W A1 s0 is A r1 r2). Qed.
Print Assumptions C70_init_read_back.

(** The repository's directed tests that use WRITE_INIT in a direct-mapped cache (tables of
    GenericTestCases.py) pass under every schedule and with any memory. *)
Theorem C70_init_tests_pass : forall t, In t all_tests -> p_assoc (t_p t) = 1 -> In T_INIT (map (fun x => cq_type (fst x)) (t_msgs t)) ->
  let p := t_p t in forall s0 is, init_run p s0 is ->
  (exists rest, map fst (t_msgs t) = accepted (trace_of p s0 is) ++ rest) ->
  exists rest, map snd (t_msgs t) = responses (trace_of p s0 is) ++ rest.
Proof. exact init_tests_pass. Qed.
Print Assumptions C70_init_tests_pass.

Definition ini (o a l d : N) : creq := mkCReq T_INIT o a l d.
(** WRITE_INITs of two words and of a byte, read back; a line of the same set; AMO, FLUSH, INV. *)
Definition prog_k : list creq :=
  [ ini 1 0x10 0 0x11223344; ini 2 0x14 0 0x55667788; ini 3 0x11 1 0xab; rd 4 0x10 0; rd 5 0x14 2; wt 6 0x16 1 0x99; rd 7 0x14 0;
    rd 8 0x20 0; ini 9 0x24 0 0x77; rd 10 0x10 0; rd 11 0x20 0; rd 12 0x24 0; mkCReq T_FLUSH 13 0 0 0; rd 14 0x24 0;
    mkCReq T_AMO_ADD 15 0x24 0 5; ini 16 0x28 0 0x33; rd 17 0x28 0; mkCReq T_INV 18 0 0 0; ini 19 0x28 0 0x34; rd 20 0x28 0 ].
Definition is_k : list inp := is_a px1 prog_k (eager 150).
Lemma prog_k_ok : forall prog cs, Forall (fun r => wf_req px1 r \/ wf_init px1 r) prog ->
  typedb [] (trace_of px1 (s0_a px1) (is_a px1 prog cs)) = true -> init_run px1 (s0_a px1) (is_a px1 prog cs).
Proof.
  intros prog cs F T. split; [apply mk_reset_ok|]. split; [|apply typedb_run; auto].
  exact (proj1 (drive_gen _ px1 cs (s0_a px1) mem_a [] prog F)).
Qed.
Definition okI (p : params) (r : creq) : bool :=
  wf_reqb p r || ((cq_type r =? T_INIT) && wf_reqb p (as_write r)).
Lemma okI_ok : forall p l, forallb (okI p) l = true -> Forall (fun r => wf_req p r \/ wf_init p r) l.
Proof.
  intros p l H. apply Forall_forall. intros r I. rewrite forallb_forall in H. specialize (H r I).
  unfold okI in H. apply orb_prop in H. destruct H as [H|H]; [left; apply wf_reqb_ok; auto|].
  apply andb_prop in H. destruct H as [H1 H2]. apply N.eqb_eq in H1. apply wf_reqb_ok in H2. right. split; [auto|]. split; [auto|].
  destruct H2 as (_ & _ & [(T & _) | [H2 | [(T & _) | [T | T]]]]); auto; try discriminate T. exfalso. destruct T as [T _]. apply T. reflexivity.
Qed.

Example C70_example : init_run px1 (s0_a px1) is_k /\
  map (fun y => (cr_opq y, cr_test y, cr_data y)) (responses (trace_of px1 (s0_a px1) is_k)) =
  [ (1, 0, 0); (2, 0, 0); (3, 0, 0); (4, 1, 0x1122ab44); (5, 1, 0x7788); (6, 1, 0); (7, 1, 0x55997788);
    (8, 0, 0xf8f1eae3); (9, 0, 0); (10, 1, 0x1122ab44); (11, 1, 0xf8f1eae3); (12, 1, 0x77); (13, 0, 0); (14, 1, 0x77);
    (15, 0, 0x140d06ff); (16, 0, 0); (17, 1, 0x33); (18, 0, 0); (19, 0, 0); (20, 1, 0x34) ] /\
  map mq_addr (memreqs (trace_of px1 (s0_a px1) is_k)) = [0x20; 0x10; 0x24].
Proof.
  split; [apply prog_k_ok; [apply okI_ok; vm_compute; reflexivity | vm_compute; reflexivity]|]. vm_compute. auto.
Qed.

Example C70_read_back_example :
  let tr := trace_of px1 (s0_a px1) (is_a px1 (firstn 17 prog_k) (eager 150)) in
  init_run px1 (s0_a px1) (is_a px1 (firstn 17 prog_k) (eager 150)) /\
  accepted tr = firstn 15 prog_k ++ [ini 16 0x28 0 0x33; rd 17 0x28 0] /\ length (responses tr) = length (accepted tr).
Proof.
  cbv zeta. split; [apply prog_k_ok; [apply okI_ok; vm_compute; reflexivity | vm_compute; reflexivity]|]. vm_compute. auto.
Qed.

(** There are ten such tests; one of them driven to its end by a slow environment. *)
Definition init_tests : list dtest :=
  filter (fun t => (p_assoc (t_p t) =? 1) && existsb (fun x => cq_type (fst x) =? T_INIT) (t_msgs t)) all_tests.
Definition t_i : dtest := nth 3 init_tests (nth 0 all_tests (mkT px1 [] [])).
Definition s_i : st := mk_reset (t_p t_i) junk_t junk_d.
Definition is_i : list inp := fst (drive (t_p t_i) s_i (load_words (t_mem t_i)) [] (map fst (t_msgs t_i)) (lively 350 0)).
Example C70_tests_example : length init_tests = 10%nat /\ In t_i init_tests /\ length (t_msgs t_i) = 9%nat /\
  init_run (t_p t_i) s_i is_i /\
  accepted (trace_of (t_p t_i) s_i is_i) = map fst (t_msgs t_i) /\ responses (trace_of (t_p t_i) s_i is_i) = map snd (t_msgs t_i).
Proof.
  split; [vm_compute; reflexivity|]. split; [unfold t_i; apply nth_In; vm_compute; repeat constructor|]. split; [vm_compute; reflexivity|].
  assert (F : forallb (okI (t_p t_i)) (map fst (t_msgs t_i)) = true) by (vm_compute; reflexivity).
  split; [|split; vm_compute; reflexivity].
  split; [apply mk_reset_ok|]. split; [|apply typedb_run; vm_compute; reflexivity].
  exact (proj1 (drive_gen _ (t_p t_i) (lively 350 0) s_i (load_words (t_mem t_i)) [] _ (okI_ok _ _ F))).
Qed.

(** What is not so, even with one way, with the ideal memory.  A word written by
    WRITE_INIT is lost when its line leaves the cache: it is never written back. *)
Theorem C70_init_lost_refuted : exists p s0 is m0 m rs, wf_params p /\ p_assoc p = 1 /\ init_run p s0 is /\
  let tr := trace_of p s0 is in mem_trace p m0 [] [] tr m [] rs /\
  accepted tr = [ini 1 0x10 0 0x11; rd 2 0x10 0; rd 3 0x50 0; rd 4 0x10 0] /\
  map (fun y => (cr_opq y, cr_data y)) (responses tr) = [(1, 0); (2, 0x11); (3, 0x4841 * 65536 + 0x3a33); (4, 0x8881 * 65536 + 0x7a73)] /\
  filter (fun q => mq_type q =? T_WRITE) (memreqs tr) = [].
Proof.
  set (pr := [ini 1 0x10 0 0x11; rd 2 0x10 0; rd 3 0x50 0; rd 4 0x10 0]).
  exists px1, (s0_a px1), (is_a px1 pr (eager 90)), mem_a, (fst (end_a px1 pr (eager 90))), (snd (end_a px1 pr (eager 90))).
  split; [exact px1_wf|]. split; [reflexivity|]. split; [apply prog_k_ok; [apply okI_ok; vm_compute; reflexivity | vm_compute; reflexivity]|].
  cbv zeta. split; [exact (proj2 (drive_gen (fun _ => True) px1 (eager 90) (s0_a px1) mem_a [] pr ltac:(apply Forall_forall; auto)))|].
  vm_compute. auto.
Qed.
Print Assumptions C70_init_lost_refuted.

(** And it can make the cache write words to memory that nobody ever wrote: after a
    miss on a line that INV left dirty, WRITE_INIT marks the same word numbers of its own line. *)
Theorem C70_init_wild_write_refuted : exists p s0 is m0 m rs, wf_params p /\ p_assoc p = 1 /\ init_run p s0 is /\
  let tr := trace_of p s0 is in mem_trace p m0 [] [] tr m [] rs /\
  accepted tr = [wt 1 0x14 0 0x5; mkCReq T_INV 2 0 0 0; rd 3 0x14 0; ini 4 0x20 0 0x11; rd 5 0x60 0; rd 6 0x24 0] /\
  length (responses tr) = 6%nat /\ trunc 8 (m 0x24) <> trunc 8 (m0 0x24).
Proof.
  set (pr := [wt 1 0x14 0 0x5; mkCReq T_INV 2 0 0 0; rd 3 0x14 0; ini 4 0x20 0 0x11; rd 5 0x60 0; rd 6 0x24 0]).
  exists px1, (s0_a px1), (is_a px1 pr (eager 90)), mem_a, (fst (end_a px1 pr (eager 90))), (snd (end_a px1 pr (eager 90))).
  split; [exact px1_wf|]. split; [reflexivity|]. split; [apply prog_k_ok; [apply okI_ok; vm_compute; reflexivity | vm_compute; reflexivity]|].
  cbv zeta. split; [exact (proj2 (drive_gen (fun _ => True) px1 (eager 90) (s0_a px1) mem_a [] pr ltac:(apply Forall_forall; auto)))|].
  split; [vm_compute; reflexivity|]. split; [vm_compute; reflexivity|]. vm_compute. discriminate.
Qed.
Print Assumptions C70_init_wild_write_refuted.
