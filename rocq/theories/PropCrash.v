(** C45, C46: losing the cache at an arbitrary moment; reset. *)
From Coq Require Import Arith NArith List Bool Lia.
From Verif Require Import Bits Params Msg Units Rtl Mem Spec System Traffic SysProofs Harness Crash.
Import ListNotations.
Open Scope N_scope.

(** C45.  At every moment of every run, every line of main memory is, as a whole,
    what it was in the flat memory after some number [k] of the accepted requests
    ([k] may differ from line to line): never a mixture of two moments.  And [k]
    is past every answered FLUSH and every answered AMO on the line. *)
Theorem C45_crash_consistent : forall p s0 is m0 m rq rs l, wf_params p -> sys_run p s0 is m0 m rq rs ->
  let tr := trace_of p s0 is in
  exists k, (k <= length (accepted tr))%nat /\ same_line p l m (flat_mem p m0 (firstn k (accepted tr))) /\
    forall j r, (j < length (responses tr))%nat -> nth_error (accepted tr) j = Some r -> durable p l r -> (j < k)%nat.
Proof. exact (fun p s0 is m0 m rq rs l W => sys_crash p W s0 is m0 m rq rs l). Qed.
Print Assumptions C45_crash_consistent.

(** A write to line 1, then one to line 4, which is then evicted: at the end line 4
    of memory has the new word and line 1 still the old one.  So no single [k]
    serves all lines: without FLUSH the order of writes to different lines is not
    kept in memory. *)
Definition prog_o : list creq := [wt 1 0x10 0 0x11111111; wt 2 0x40 0 0x22222222; rd 3 0x60 0; rd 4 0x80 0].
Theorem C45_global_prefix_refuted : exists p s0 is m0 m rq rs, wf_params p /\ sys_run p s0 is m0 m rq rs /\
  length (responses (trace_of p s0 is)) = length (accepted (trace_of p s0 is)) /\
  ~ exists k, forall l, same_line p l m (flat_mem p m0 (firstn k (accepted (trace_of p s0 is)))).
Proof.
  exists px, (s0_a px), (is_a px prog_o (eager 40)), mem_a, (fst (end_a px prog_o (eager 40))), [], (snd (end_a px prog_o (eager 40))).
  split; [exact px_wf|]. split; [apply run_a, wf_all; reflexivity|]. split; [vm_compute; reflexivity|].
  intros (k & H).
  assert (E : accepted (trace_of px (s0_a px) (is_a px prog_o (eager 40))) = prog_o) by (vm_compute; reflexivity).
  rewrite E in H. pose proof (H 1 0x10 eq_refl eq_refl) as H1. pose proof (H 4 0x40 eq_refl eq_refl) as H4.
  destruct k as [|[|k]].
  - vm_compute in H4. discriminate H4.
  - vm_compute in H1. discriminate H1.
  - assert (F : flat_mem px mem_a (firstn (S (S k)) prog_o) 16 = 0x11).
    { unfold prog_o. cbn [firstn]. destruct k as [|[|k]]; [vm_compute; reflexivity | vm_compute; reflexivity |].
      destruct k; vm_compute; reflexivity. }
    rewrite F in H1. vm_compute in H1. discriminate H1.
Qed.
Print Assumptions C45_global_prefix_refuted.

(** C46.  Whatever state the cache is in, known or not, one or more cycles with
    reset high bring it to the state every other theorem starts from. *)
Theorem C46_reset_state : forall p s i hold, reset_state p (rst_run p (rst_next p s i) hold).
Proof. exact (fun p s i hold => rst_run_reset p hold s i). Qed.
Print Assumptions C46_reset_state.

(** Reset in the middle of a run, memory keeping its contents [m] (and dropping
    requests and answers in flight): the next session is a run of a fresh cache on
    [m], and [m] is as C45 says. *)
Theorem C46_recovery : forall p s0 is m0 m rq rs i hold is2 m2 rq2 rs2, wf_params p ->
  sys_run p s0 is m0 m rq rs ->
  let s1 := rst_run p (rst_next p (fst (run p s0 is)) i) hold in
  let tr1 := trace_of p s0 is in let tr2 := trace_of p s1 is2 in
  client_ok p tr2 -> mem_trace p m [] [] tr2 m2 rq2 rs2 ->
  (exists rest, flat_data p m (accepted tr2) = map cr_data (responses tr2) ++ rest) /\
  forall l, exists k, (k <= length (accepted tr1))%nat /\ same_line p l m (flat_mem p m0 (firstn k (accepted tr1))) /\
    forall j r, (j < length (responses tr1))%nat -> nth_error (accepted tr1) j = Some r -> durable p l r -> (j < k)%nat.
Proof.
  exact (fun p s0 is m0 m rq rs i hold is2 m2 rq2 rs2 W R C M =>
    conj (Facts1.sys_flat p W _ is2 m m2 rq2 rs2 (reset_recover p s0 is m0 m rq rs i hold is2 m2 rq2 rs2 R C M))
         (fun l => sys_crash p W s0 is m0 m rq rs l R)).
Qed.
Print Assumptions C46_recovery.

(** Clean shutdown: if the last accepted request was a FLUSH and all were answered,
    the sessions before and after the reset together are one flat history. *)
Theorem C46_clean_shutdown : forall p s0 is m0 m rq rs i hold is2 m2 rq2 rs2 A f, wf_params p ->
  sys_run p s0 is m0 m rq rs ->
  let tr1 := trace_of p s0 is in
  length (responses tr1) = length (accepted tr1) -> accepted tr1 = A ++ [f] -> cq_type f = T_FLUSH ->
  let s1 := rst_run p (rst_next p (fst (run p s0 is)) i) hold in
  let tr2 := trace_of p s1 is2 in
  sys_run p s1 is2 m m2 rq2 rs2 ->
  exists rest, flat_data p m0 (accepted tr1 ++ accepted tr2) = map cr_data (responses tr1 ++ responses tr2) ++ rest.
Proof. exact (fun p s0 is m0 m rq rs i hold is2 m2 rq2 rs2 A f W => reset_clean p W s0 is m0 m rq rs i hold is2 m2 rq2 rs2 A f). Qed.
Print Assumptions C46_clean_shutdown.

(** If only the cache is reset, answers of memory to requests made before the reset
    do no harm (whatever they are), provided they arrive in one of the first
    [total_lines - 1] cycles after reset. *)
Theorem C46_late_answers : forall p s i hold is1 is2 m m2 rq2 rs2, wf_params p ->
  let s1 := rst_run p (rst_next p s i) hold in
  N.of_nat (length is1) = total_lines p ->
  i_mresp_en (last is1 (mkInp false creq0 false false false mresp0)) = false ->
  client_ok p (trace_of p s1 (is1 ++ is2)) ->
  let tr1 := trace_of p s1 is1 in
  let tr2 := trace_of p (fst (run p s1 is1)) is2 in
  mem_trace p m [] [] tr2 m2 rq2 rs2 ->
  accepted tr1 = [] /\ responses tr1 = [] /\ memreqs tr1 = [] /\
  (exists rest, flat_data p m (accepted tr2) = map cr_data (responses tr2) ++ rest) /\
  (exists rest, map (fun r => (cq_type r, cq_opq r, cq_len r)) (accepted tr2) =
                map (fun y => (cr_type y, cr_opq y, cr_len y)) (responses tr2) ++ rest).
Proof.
  exact (fun p s i hold is1 is2 m m2 rq2 rs2 W => reset_hot p W _ is1 is2 m m2 rq2 rs2 (rst_run_reset p hold s i)).
Qed.
Print Assumptions C46_late_answers.

(** Later answers do harm: a READ with opaque 7 accepted in the cycle after a stale
    answer is answered with opaque 0 and the data of address 0. *)
Definition ch_quiet := mkCh true true true false.
Definition p_1 := [rd 1 0x40 0].
Definition c_1 := repeat ch_quiet 8.
Definition i_idle := mkInp false creq0 true true false mresp0.
Definition s_1 := rst_next px (fst (run px (s0_a px) (is_a px p_1 c_1))) i_idle.
Definition d_2 := drive px s_1 (fst (end_a px p_1 c_1)) (snd (end_a px p_1 c_1)) [rd 7 0x10 0]
  (repeat (mkCh false true true false) 4 ++ mkCh false true true true :: eager 12).
Theorem C46_stale_answer_refuted : exists p s0 is m0 m rs i is2 m2 rs2, wf_params p /\
  sys_run p s0 is m0 m [] rs /\
  let s1 := rst_next p (fst (run p s0 is)) i in let tr2 := trace_of p s1 is2 in
  client_ok p tr2 /\ mem_trace p m [] rs tr2 m2 [] rs2 /\
  map cq_opq (accepted tr2) = [7] /\ map cr_opq (responses tr2) = [0] /\
  map cr_data (responses tr2) <> flat_data p m (accepted tr2).
Proof.
  assert (F2 : Forall (wf_req px) [rd 7 0x10 0]) by (apply wf_all; reflexivity).
  destruct (drive_ok px (repeat (mkCh false true true false) 4 ++ mkCh false true true true :: eager 12) s_1 (fst (end_a px p_1 c_1)) (snd (end_a px p_1 c_1)) _ F2) as [D1 D2].
  exists px, (s0_a px), (is_a px p_1 c_1), mem_a, (fst (end_a px p_1 c_1)), (snd (end_a px p_1 c_1)), i_idle, (fst d_2), (fst (snd d_2)), (snd (snd d_2)).
  split; [exact px_wf|]. split; [exact (run_a px p_1 c_1 (wf_all px p_1 eq_refl))|]. cbv zeta.
  split; [exact D1|]. split; [exact D2|].
  split; [vm_compute; reflexivity|]. split; [vm_compute; reflexivity|]. vm_compute. discriminate.
Qed.
Print Assumptions C46_stale_answer_refuted.

(** The hypotheses are met: the same reset with the stale answer delivered in the
    first cycle of initialisation (C46_late_answers, C46_recovery). *)
Definition d_3 := drive px s_1 (fst (end_a px p_1 c_1)) (snd (end_a px p_1 c_1)) [rd 7 0x10 0] (eager 20).
Example C46_example : let is1 := firstn 4 (fst d_3) in let is2 := skipn 4 (fst d_3) in
  N.of_nat (length is1) = total_lines px /\ map i_mresp_en is1 = [true; false; false; false] /\
  client_ok px (trace_of px s_1 (is1 ++ is2)) /\
  map cr_opq (responses (trace_of px s_1 (fst d_3))) = [7] /\
  map cr_data (responses (trace_of px s_1 (fst d_3))) = flat_data px mem_a [rd 7 0x10 0] /\
  fsm (fst (run px (s0_a px) (is_a px p_1 c_1))) <> F_INIT /\ msn (fst (run px (s0_a px) (is_a px p_1 c_1))) = 1.
Proof.
  assert (F2 : Forall (wf_req px) [rd 7 0x10 0]) by (apply wf_all; reflexivity).
  destruct (drive_ok px (eager 20) s_1 (fst (end_a px p_1 c_1)) (snd (end_a px p_1 c_1)) _ F2) as [D1 _].
  cbv zeta. split; [vm_compute; reflexivity|]. split; [vm_compute; reflexivity|].
  split; [rewrite firstn_skipn; exact D1|]. vm_compute. repeat (split; [reflexivity|]). split; [discriminate|reflexivity].
Qed.
(** C46_clean_shutdown: [prog_a] ends with a FLUSH; the next session reads what it wrote. *)
Definition d_4 := drive px (rst_next px (fst (run px (s0_a px) (is_a px prog_a (lively 150 0)))) i_idle)
  (fst (end_a px prog_a (lively 150 0))) [] [rd 17 0x28 0; rd 18 0x10 0] (eager 30).
Example C46_clean_example : exists A f,
  let tr1 := trace_of px (s0_a px) (is_a px prog_a (lively 150 0)) in
  length (responses tr1) = length (accepted tr1) /\ accepted tr1 = A ++ [f] /\ cq_type f = T_FLUSH /\
  let s1 := rst_next px (fst (run px (s0_a px) (is_a px prog_a (lively 150 0)))) i_idle in
  sys_run px s1 (fst d_4) (fst (end_a px prog_a (lively 150 0))) (fst (snd d_4)) [] (snd (snd d_4)) /\
  map cr_data (responses (trace_of px s1 (fst d_4))) = [0x12345678; 0xdead77f4].
Proof.
  exists (firstn 15 prog_a), (mkCReq T_FLUSH 16 0 0 0). cbv zeta.
  assert (F2 : Forall (wf_req px) [rd 17 0x28 0; rd 18 0x10 0]) by (apply wf_all; reflexivity).
  destruct (drive_ok px (eager 30) (rst_next px (fst (run px (s0_a px) (is_a px prog_a (lively 150 0)))) i_idle)
     (fst (end_a px prog_a (lively 150 0))) [] _ F2) as [D1 D2].
  split; [vm_compute; reflexivity|]. split; [vm_compute; reflexivity|]. split; [reflexivity|].
  split; [split; [apply rst_reset | split; [exact D1 | exact D2]]|].
  vm_compute. reflexivity.
Qed.
