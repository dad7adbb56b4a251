(** C55, C56: what idle ports show does not matter; which inputs an output can react to. *)
From Coq Require Import NArith List Bool Lia.
From Verif Require Import Bits Params Msg Rtl Mem Spec System Hide Proto Harness IdleSpec Idle2.
Import ListNotations.
Open Scope N_scope.

(** C55.  A run out of reset with a well-behaved client and a memory that answers
    in order.  Change, in any cycles, what the request port shows while not
    enabled, what the memory response port shows while not enabled, and the
    opaque and length fields of memory answers.  Then every output in every cycle
    is the same, except the opaque field of memory WRITE requests. *)
Theorem C55_idle_ports : forall p s0 is is', wf_params p -> proto_run p s0 is -> Forall2 idle_eq is is' ->
  map drop_out (snd (run p s0 is')) = map drop_out (snd (run p s0 is)).
Proof. exact (fun p s0 is is' W => idle_ports p W s0 is is'). Qed.
Print Assumptions C55_idle_ports.

(** So the same requests are accepted, the same responses come back, and the
    changed run is again one with a well-behaved client and memory. *)
Theorem C55_same_run : forall p s0 is is', wf_params p -> proto_run p s0 is -> Forall2 idle_eq is is' ->
  let tr := trace_of p s0 is in let tr' := trace_of p s0 is' in
  proto_run p s0 is' /\ accepted tr' = accepted tr /\ responses tr' = responses tr /\
  map drop_wopq (memreqs tr') = map drop_wopq (memreqs tr).
Proof.
  exact (fun p s0 is is' W P F => conj (idle_proto p W is is' s0 P F)
    (conj (proj1 (idle_same p W s0 is is' P F)) (conj (proj1 (proj2 (idle_same p W s0 is is' P F)))
      (proj1 (proj2 (proj2 (idle_same p W s0 is is' P F))))))).
Qed.
Print Assumptions C55_same_run.

(** Noise on idle ports, and in the ignored fields of answers. *)
Definition noisy (i : inp) : inp :=
  mkInp (i_req_en i) (if i_req_en i then i_req i else mkCReq T_WRITE 0xaa 0x1234 2 0x77) (i_resp_rdy i) (i_mreq_rdy i) (i_mresp_en i)
    (if i_mresp_en i then mkMResp (mr_type (i_mresp i)) 0x5 3 (mr_data (i_mresp i)) else mkMResp T_WRITE 9 9 0xdead).
Lemma noisy_eq : forall is, Forall2 idle_eq is (map noisy is).
Proof.
  induction is as [|i is IH]; [constructor|]. cbn [map]. constructor; auto. constructor; cbn [noisy i_req_en i_req i_resp_rdy i_mreq_rdy i_mresp_en i_mresp]; auto.
  - intros ->. auto.
  - intros ->. auto.
Qed.
Definition is_n : list inp := is_a px prog_a (lively 150 0).
Example C55_example : proto_run px (s0_a px) is_n /\ Forall2 idle_eq is_n (map noisy is_n) /\
  length (responses (trace_of px (s0_a px) (map noisy is_n))) = 16%nat /\
  map cq_data (map i_req (map noisy is_n)) <> map cq_data (map i_req is_n).
Proof.
  split; [eapply sys_proto; apply run_a; apply wf_all; reflexivity|]. split; [apply noisy_eq|]. vm_compute. split; auto. discriminate.
Qed.

(** The exception is real: the opaque field of a FLUSH's write-backs is what the
    idle request port shows. *)
Theorem C55_flush_opaque_refuted : exists p s0 is is', wf_params p /\ proto_run p s0 is /\ Forall2 idle_eq is is' /\
  map mq_opq (memreqs (trace_of p s0 is')) <> map mq_opq (memreqs (trace_of p s0 is)).
Proof.
  exists px, (s0_a px), is_n, (map noisy is_n). split; [exact px_wf|]. split; [eapply sys_proto; apply run_a; apply wf_all; reflexivity|].
  split; [apply noisy_eq|]. vm_compute. discriminate.
Qed.
Print Assumptions C55_flush_opaque_refuted.

(** blocking_cache/README.md 78 says that of a memory answer the cache uses only
    opaque and data.  Opaque is not used (C55_idle_ports), but the type is: answers
    that differ from the right ones in nothing but the type stop the cache. *)
Definition retype (i : inp) : inp :=
  mkInp (i_req_en i) (i_req i) (i_resp_rdy i) (i_mreq_rdy i) (i_mresp_en i)
    (mkMResp T_WRITE (mr_opq (i_mresp i)) (mr_len (i_mresp i)) (mr_data (i_mresp i))).
Theorem C55_answer_type_refuted : exists p s0 is, wf_params p /\ proto_run p s0 is /\
  map (fun i => (mr_opq (i_mresp i), mr_data (i_mresp i))) (map retype is) = map (fun i => (mr_opq (i_mresp i), mr_data (i_mresp i))) is /\
  length (responses (trace_of p s0 is)) = 16%nat /\ responses (trace_of p s0 (map retype is)) = [].
Proof.
  exists px, (s0_a px), is_n. split; [exact px_wf|]. split; [eapply sys_proto; apply run_a; apply wf_all; reflexivity|].
  vm_compute. auto.
Qed.
Print Assumptions C55_answer_type_refuted.

(** C56.  What the cache shows on its outputs in a cycle depends on the past and on
    the two ready inputs only: neither enabling a request, nor the request, nor a
    memory answer has any effect on any output in the same cycle. *)
Theorem C56_no_comb_path : forall p s0 is i i', i_resp_rdy i' = i_resp_rdy i -> i_mreq_rdy i' = i_mreq_rdy i ->
  snd (run p s0 (is ++ [i'])) = snd (run p s0 (is ++ [i])).
Proof. exact comb_run. Qed.
Print Assumptions C56_no_comb_path.

(** Nothing is sent, to either side, unless both sides are ready; and then the ready
    output and the messages do not depend on the present inputs at all. *)
Theorem C56_sends_when_ready : forall p s0 is i,
  let o := last (snd (run p s0 (is ++ [i]))) (mkOut false None None) in
  o_resp o <> None \/ o_mreq o <> None -> i_resp_rdy i = true /\ i_mreq_rdy i = true.
Proof. exact sends_ready. Qed.
Print Assumptions C56_sends_when_ready.

Example C56_example :
  let is := is_a px prog_a (lively 60 0) in
  let i := mkInp false (mkCReq 0 0 0 0 0) true true false (mkMResp 0 0 0 0) in
  let i' := mkInp true (mkCReq T_WRITE 7 0x40 0 5) true true true (mkMResp T_READ 1 0 9) in
  i' <> i /\ snd (run px (s0_a px) (is ++ [i'])) = snd (run px (s0_a px) (is ++ [i])) /\
  length (responses (trace_of px (s0_a px) is)) = 9%nat.
Proof. cbv zeta. split; [discriminate|]. split; [apply C56_no_comb_path; reflexivity | vm_compute; reflexivity]. Qed.

(** The ready inputs do matter in the same cycle: there is a path from the ready
    input of the response port to the ready output of the request port (the
    dependency README.md 276 builds ProcModel for). *)
Theorem C56_rdy_path_refuted : exists p s0 is i i', wf_params p /\ proto_run p s0 (is ++ [i]) /\ proto_run p s0 (is ++ [i']) /\
  i' = mkInp (i_req_en i) (i_req i) false (i_mreq_rdy i) (i_mresp_en i) (i_mresp i) /\
  o_req_rdy (last (snd (run p s0 (is ++ [i']))) (mkOut false None None)) <>
  o_req_rdy (last (snd (run p s0 (is ++ [i]))) (mkOut false None None)).
Proof.
  exists px, (s0_a px), (is_a px prog_a (lively 60 0)), (mkInp false (mkCReq 0 0 0 0 0) true true false (mkMResp 0 0 0 0)),
    (mkInp false (mkCReq 0 0 0 0 0) false true false (mkMResp 0 0 0 0)).
  assert (P : proto_run px (s0_a px) (is_a px prog_a (lively 60 0))) by (eapply sys_proto; apply run_a; apply wf_all; reflexivity).
  split; [exact px_wf|]. split; [apply proto_quiet; auto|]. split; [apply proto_quiet; auto|]. split; [reflexivity|]. vm_compute. discriminate.
Qed.
Print Assumptions C56_rdy_path_refuted.
