(** C67: fields a request does not use do not matter. *)
From Coq Require Import NArith List Bool Lia.
From Verif Require Import Bits Params Msg Rtl Mem Spec System Hide Proto Harness UnusedSpec Unused2.
Import ListNotations.
Open Scope N_scope.

(** C67.  A run out of reset with a well-behaved client and a memory that answers in order.  Change, in any cycles,
    fields that a request of its type does not use: opaque of any request; data of a READ; the data bits a WRITE
    does not write; address, length and data of INV and FLUSH; the length of an AMO on a 32-bit port; also what ports show
    while not enabled, and opaque and length of memory answers.  Then in every cycle all outputs are the same, but for
    the opaque of responses and memory requests, the length field of responses to INV, FLUSH and such AMOs, and the data field of
    memory READs. *)
Theorem C67_unused_fields : forall p s0 is is', wf_params p -> proto_run p s0 is -> Forall2 (use_in p) is is' ->
  map (bare_out p) (snd (run p s0 is')) = map (bare_out p) (snd (run p s0 is)).
Proof. exact (fun p s0 is is' W => unused_ports p W s0 is is'). Qed.
Print Assumptions C67_unused_fields.

(** If the changed requests are supported ones, the changed run is again one with a well-behaved client and memory; the
    fields left open by [bare_resp] are copies of those of the requests; and memory ends with the same contents. *)
Theorem C67_same_run : forall p s0 is is' m0, wf_params p -> proto_run p s0 is -> Forall2 (use_in p) is is' ->
  Forall (fun i => i_req_en i = true -> wf_req p (i_req i)) is' ->
  let tr := trace_of p s0 is in let tr' := trace_of p s0 is' in
  proto_run p s0 is' /\ Forall2 (same_use p) (accepted tr) (accepted tr') /\
  map (bare_resp p) (responses tr') = map (bare_resp p) (responses tr) /\
  (exists rest, map (fun r => (cq_type r, cq_opq r, cq_len r)) (accepted tr') =
                map (fun y => (cr_type y, cr_opq y, cr_len y)) (responses tr') ++ rest) /\
  map bare_mreq (memreqs tr') = map bare_mreq (memreqs tr) /\
  fst (mem_run p m0 (memreqs tr')) = fst (mem_run p m0 (memreqs tr)).
Proof. exact (fun p s0 is is' m0 W => use_same p W s0 is is' m0). Qed.
Print Assumptions C67_same_run.

(** Scrambles every field that is not used. *)
Definition scr (r : creq) : creq :=
  let t := cq_type r in
  mkCReq t (N.lxor (cq_opq r) 0xa5)
    (if whole t then 0x1234 else cq_addr r)
    (if whole t || is_amo t then 1 else cq_len r)
    (if t =? T_WRITE then (if cq_len r =? 1 then cq_data r mod 256 + 0x5500 else if cq_len r =? 2 then cq_data r mod 65536 + 0x770000 else cq_data r)
     else if is_amo t then cq_data r else 0xdeadbeef).
Definition scr_in (i : inp) : inp :=
  mkInp (i_req_en i) (scr (i_req i)) (i_resp_rdy i) (i_mreq_rdy i) (i_mresp_en i)
    (mkMResp (mr_type (i_mresp i)) 0x5 3 (mr_data (i_mresp i))).
Definition prog_u : list creq :=
  [rd 1 0x10 0; wt 2 0x14 1 0xff77; mkCReq T_AMO_ADD 3 0x10 0 5; rd 4 0x14 2; wt 5 0x52 2 0x123456; mkCReq T_FLUSH 6 0 0 0; rd 7 0x50 0;
   mkCReq T_INV 8 0 0 0; rd 9 0x10 0; wt 10 0x90 0 0xabcdef01; rd 11 0xd0 0; mkCReq T_FLUSH 12 0x40 0 3].
Definition is_u : list inp := is_a px prog_u (lively 150 0).
(** decides [use_in] for the concrete lists here *)
Definition same_useb (p : params) (r r' : creq) : bool :=
  (cq_type r' =? cq_type r) && (whole (cq_type r) || (cq_addr r' =? cq_addr r)) && (no_len p (cq_type r) || (cq_len r' =? cq_len r)) &&
  (negb (cq_type r =? T_WRITE) || (trunc (N.min (8 * req_bytes p r) (p_dbw p)) (cq_data r') =? trunc (N.min (8 * req_bytes p r) (p_dbw p)) (cq_data r))) &&
  (negb (is_amo (cq_type r)) || (cq_data r' =? cq_data r)).
Lemma same_useb_ok : forall p r r', same_useb p r r' = true -> same_use p r r'.
Proof.
  assert (O : forall a b, a || b = true -> a = false -> b = true) by (intros [] []; auto).
  intros p r r' H. unfold same_useb in H. apply andb_prop in H. destruct H as [H H5]. apply andb_prop in H. destruct H as [H H4].
  apply andb_prop in H. destruct H as [H H3]. apply andb_prop in H. destruct H as [H1 H2].
  constructor; [apply N.eqb_eq; auto | | | |]; intros X; apply N.eqb_eq.
  - exact (O _ _ H2 X).
  - exact (O _ _ H3 X).
  - apply (O _ _ H4). rewrite X. reflexivity.
  - apply (O _ _ H5). rewrite X. reflexivity.
Qed.
Lemma scr_use : forall is, forallb (fun i => same_useb px (i_req i) (scr (i_req i))) is = true -> Forall2 (use_in px) is (map scr_in is).
Proof.
  induction is as [|i is IH]; intros H; [constructor|]. cbn [forallb map] in *. apply andb_prop in H. destruct H as [H1 H2].
  constructor; auto. constructor; auto. intros _. apply same_useb_ok. auto.
Qed.
Lemma scr_wf : forall is, forallb (fun i => wf_reqb px (scr (i_req i))) is = true ->
  Forall (fun i => i_req_en i = true -> wf_req px (i_req i)) (map scr_in is).
Proof.
  induction is as [|i is IH]; intros H; [constructor|]. cbn [forallb map] in *. apply andb_prop in H. destruct H as [H1 H2].
  constructor; auto. intros _. apply wf_reqb_ok. auto.
Qed.
Example C67_example : proto_run px (s0_a px) is_u /\ Forall2 (use_in px) is_u (map scr_in is_u) /\
  Forall (fun i => i_req_en i = true -> wf_req px (i_req i)) (map scr_in is_u) /\
  length (responses (trace_of px (s0_a px) is_u)) = 12%nat /\
  length (filter (fun q => mq_type q =? T_WRITE) (memreqs (trace_of px (s0_a px) is_u))) = 3%nat.
Proof.
  split; [eapply sys_proto; apply run_a; apply wf_all; reflexivity|]. split; [apply scr_use; vm_compute; reflexivity|].
  split; [apply scr_wf; vm_compute; reflexivity|]. split; vm_compute; reflexivity.
Qed.

(** The exception is real: the data field of a client's READ shows in the data field of the memory READ that serves it. *)
Theorem C67_read_data_refuted : exists p s0 is is', wf_params p /\ proto_run p s0 is /\ Forall2 (use_in p) is is' /\
  map mq_data (filter (fun q => mq_type q =? T_READ) (memreqs (trace_of p s0 is'))) <>
  map mq_data (filter (fun q => mq_type q =? T_READ) (memreqs (trace_of p s0 is))).
Proof.
  exists px, (s0_a px), is_u, (map scr_in is_u). split; [exact px_wf|].
  split; [eapply sys_proto; apply run_a; apply wf_all; reflexivity|]. split; [apply scr_use; vm_compute; reflexivity|]. vm_compute. discriminate.
Qed.
Print Assumptions C67_read_data_refuted.
