(** C01, C02, C07: what a client sees is a flat byte memory. *)
From Coq Require Import NArith List Bool Lia.
From Verif Require Import Bits Params Msg Rtl Mem Spec System SysProofs SysFacts Facts1 Facts2 Harness.
Import ListNotations.
Open Scope N_scope.

(** C01.  For every configuration, power-up contents, initial memory, request
    history and schedule: the data of the responses sent so far is a prefix of
    the data a flat byte memory returns for the accepted requests. *)
Theorem C01_flat_memory : forall p s0 is m0 m rq rs, wf_params p -> sys_run p s0 is m0 m rq rs ->
  let tr := trace_of p s0 is in
  exists rest, flat_data p m0 (accepted tr) = map cr_data (responses tr) ++ rest.
Proof. exact (fun p s0 is m0 m rq rs W => sys_flat p W s0 is m0 m rq rs). Qed.
Print Assumptions C01_flat_memory.

(** A concrete run: 16 requests of every kind, with stalls; all are answered. *)
Example C01_example : exists s0 is m rq rs, sys_run px s0 is mem_a m rq rs /\
  accepted (trace_of px s0 is) = prog_a /\ length (responses (trace_of px s0 is)) = 16%nat.
Proof.
  do 5 eexists. split; [exact (run_a px prog_a (lively 150 0) prog_a_wf)|]. vm_compute. auto.
Qed.

(** C02.  Responses come in order, one per request, echoing type, opaque and
    len; WRITE, INV and FLUSH responses carry data 0. *)
Theorem C02_in_order_echo : forall p s0 is m0 m rq rs, wf_params p -> sys_run p s0 is m0 m rq rs ->
  let tr := trace_of p s0 is in
  (exists rest, map (fun r => (cq_type r, cq_opq r, cq_len r)) (accepted tr) =
                map (fun y => (cr_type y, cr_opq y, cr_len y)) (responses tr) ++ rest) /\
  Forall (fun y => cr_type y = T_WRITE \/ cr_type y = T_INV \/ cr_type y = T_FLUSH -> cr_data y = 0) (responses tr).
Proof.
  exact (fun p s0 is m0 m rq rs W R => conj (sys_echo p W s0 is m0 m rq rs R) (sys_zero p W s0 is m0 m rq rs R)).
Qed.
Print Assumptions C02_in_order_echo.

Example C02_example : exists s0 is m rq rs, sys_run px1 s0 is mem_a m rq rs /\
  map cr_opq (responses (trace_of px1 s0 is)) = [1; 2; 3; 4; 5; 6; 7; 8; 9; 10; 11; 12; 13; 14; 15; 16].
Proof.
  do 5 eexists. split; [exact (run_a px1 prog_a (lively 150 0) (wf_all px1 prog_a eq_refl))|]. vm_compute. auto.
Qed.

(** C07.  In the cycle in which the response to a FLUSH is produced, no memory
    request is waiting in memory and every byte of memory has the value of the
    flat memory after all requests up to and including the FLUSH. *)
Theorem C07_flush_memory : forall p s0 is i m0 m rq rs y A r, wf_params p ->
  sys_run p s0 (is ++ [i]) m0 m rq rs ->
  let tr := trace_of p s0 (is ++ [i]) in
  o_resp (output p (fst (run p s0 is)) i) = Some y ->
  firstn (length (responses tr)) (accepted tr) = A ++ [r] -> cq_type r = T_FLUSH ->
  rq = [] /\ forall a, a < 2 ^ p_abw p -> trunc 8 (m a) = trunc 8 (flat_mem p m0 (A ++ [r]) a).
Proof. exact (fun p s0 is i m0 m rq rs y A r W => sys_flush p W s0 is i m0 m rq rs y A r). Qed.
Print Assumptions C07_flush_memory.

(** The first FLUSH of the program is answered in cycle 99; memory then holds the
    dirty double word. *)
Example C07_example : exists is i m rq rs y A r, sys_run px (s0_a px) (is ++ [i]) mem_a m rq rs /\
  o_resp (output px (fst (run px (s0_a px) is)) i) = Some y /\
  firstn (length (responses (trace_of px (s0_a px) (is ++ [i])))) (accepted (trace_of px (s0_a px) (is ++ [i]))) = A ++ [r] /\
  cq_type r = T_FLUSH /\ length A = 13%nat /\ rd_bytes m 0x28 8 = 0x12345678 /\ rd_bytes mem_a 0x28 8 <> 0x12345678.
Proof.
  set (is0 := is_a px prog_a (lively 100 0)).
  assert (E : exists is i, is0 = is ++ [i] /\
    exists y A r, o_resp (output px (fst (run px (s0_a px) is)) i) = Some y /\
    firstn (length (responses (trace_of px (s0_a px) is0))) (accepted (trace_of px (s0_a px) is0)) = A ++ [r] /\
    cq_type r = T_FLUSH /\ length A = 13%nat).
  { exists (removelast is0), (last is0 (mkInp false creq0 false false false mresp0)). split; [vm_compute; reflexivity|].
    eexists _, (firstn 13 prog_a), (mkCReq T_FLUSH 14 0 0 0). split; [vm_compute; reflexivity|]. vm_compute. auto. }
  destruct E as (is & i & E & y & A & r & H1 & H2 & H3 & H4).
  exists is, i, (fst (end_a px prog_a (lively 100 0))), [], (snd (end_a px prog_a (lively 100 0))), y, A, r.
  rewrite <- E. split; [apply run_a, prog_a_wf|]. repeat (split; [assumption|]).
  split; [vm_compute; reflexivity | vm_compute; discriminate].
Qed.
