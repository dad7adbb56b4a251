(** C65: caches that share a memory do not disturb each other's timing. *)
From Coq Require Import Arith NArith List Bool Lia.
From Verif Require Import Bits Params Msg Rtl Mem Spec System Traffic MultiSys Hide Harness MultiHarness Proto IdleSpec TimeSpec ExactSpec ScheduleSpec LatSpec Lat4 IsoSpec Iso PropObliv PropSchedule PropLat.
Import ListNotations.
Open Scope N_scope.

(** C65.  Two systems of caches over a memory, with any number of caches, any programs and any memory contents, in
    which one cache (of the same size, in the same state after reset) has a client that does
    the same in every cycle up to data, on a memory port that serves this cache without
    regard to the others.  Then everything this cache shows in every cycle is the same up
    to data: readiness, responses with type, opaque, hit flag and length, memory requests with
    type, address, length and mask. *)
Theorem C65_isolation : forall p p' z z' n n' takes answers s0 s0' m0 m0' ts ts' m m' rq rq' rs rs' i i',
  wf_caches p z n -> wf_caches p' z' n' ->
  clients p z n s0 ts -> mmem p n m0 no_reqs no_resps ts m rq rs -> (i < n)%nat ->
  clients p' z' n' s0' ts' -> mmem p' n' m0' no_reqs no_resps ts' m' rq' rs' -> (i' < n')%nat ->
  sized p' z' i' = sized p z i -> s0' i' = s0 i ->
  Forall2 same_client (map fst (proj i ts)) (map fst (proj i' ts')) ->
  own_timing takes answers (proj i ts) -> own_timing takes answers (proj i' ts') ->
  map public (map snd (proj i' ts')) = map public (map snd (proj i ts)).
Proof. exact (fun p p' z z' n n' takes answers s0 s0' m0 m0' ts ts' m m' rq rq' rs rs' i i' W _ => multi_isolated p p' z z' n n' W takes answers s0 s0' m0 m0' ts ts' m m' rq rq' rs rs' i i'). Qed.
Print Assumptions C65_isolation.

(** With a port that answers after [L] cycles and a client that never waits, requests are accepted and answered exactly in
    the cycles computed from the cache's own program: no other program appears in them. *)
Theorem C65_schedule : forall p z n L total s0 m0 ts m rq rs i, wf_caches p z n ->
  clients p z n s0 ts -> mmem p n m0 no_reqs no_resps ts m rq rs -> (i < n)%nat ->
  (1 <= L)%nat -> let tr := proj i ts in prompt total [] tr = true -> latency L tr -> (length (accepted tr) <= total)%nat ->
  accept_cycles tr = lat_starts (sized p z i) L (accepted tr) /\
  answer_cycles tr = filter (fun t => Nat.ltb t (length ts)) (lat_ends (sized p z i) L (accepted tr)) /\
  ((length (accepted tr) < total)%nat -> (length ts <= lat_next (sized p z i) L (accepted tr))%nat).
Proof. exact (fun p z n L total s0 m0 ts m rq rs i W => multi_schedule p z n W L total s0 m0 ts m rq rs i). Qed.
Print Assumptions C65_schedule.

(** Such a port is one with its own timing. *)
Theorem C65_fixed_latency : forall L tr, (1 <= L)%nat -> latency L tr -> Forall (fun io => i_mreq_rdy (fst io) = true) tr ->
  own_timing (fun _ => true) (after L) tr.
Proof.
  exact (fun L tr G H F t1 io t2 E => conj (proj1 (Forall_forall _ _) F io (eq_ind_r (fun l => In io l) (in_elt io t1 t2) E)) (after_latency L tr G H t1 io t2 E)).
Qed.
Print Assumptions C65_fixed_latency.

(** Cache 0 runs [prog_r0] over a memory that answers after three cycles, once beside a cache that writes,
    flushes and reads the same words, once beside one that does AMOs on them. *)
Definition prog_r2 : list creq := [ mkCReq T_AMO_ADD 1 0x10 0 5; mkCReq T_AMO_ADD 2 0x14 0 5; mkCReq T_AMO_SWAP 3 0x10 0 6 ].
Definition ch_l (q : params) (s : st) (prog : list creq) : list choice := lat_choices q s mem_a [] prog (repeat false 3) 80.
Definition ts_i (prog : list creq) : list cyc :=
  map two (fst (mdrive px z_m sm sm1 mem_a [] [] prog_r0 prog
    (combine (ch_l (sized px z_m 0) sm prog_r0) (ch_l (sized px z_m 1) sm1 prog)))).
Example C65_example : 
  (forall prog, prog = prog_r1 \/ prog = prog_r2 ->
    clients px z_m 2 st_m (ts_i prog) /\ (exists m rq rs, mmem px 2 mem_a no_reqs no_resps (ts_i prog) m rq rs) /\
    prompt 5 [] (proj 0 (ts_i prog)) = true /\ latency 3 (proj 0 (ts_i prog)) /\ latency 3 (proj 1 (ts_i prog)) /\
    length (responses (proj 0 (ts_i prog))) = 5%nat) /\
  Forall2 same_client (map fst (proj 0 (ts_i prog_r1))) (map fst (proj 0 (ts_i prog_r2))) /\
  map cr_data (responses (proj 0 (ts_i prog_r1))) <> map cr_data (responses (proj 0 (ts_i prog_r2))) /\
  accept_cycles (proj 0 (ts_i prog_r1)) = accept_cycles (proj 0 (ts_i prog_r2)).
Proof.
  split; [|split; [|split]].
  - intros prog H. 
    assert (F : Forall (wf_req px) prog) by (destruct H as [-> | ->]; apply wf_all; reflexivity).
    destruct (mdrive_racy px z_m sm sm1 mem_a prog_r0 prog (combine (ch_l (sized px z_m 0) sm prog_r0) (ch_l (sized px z_m 1) sm1 prog))) as (C & rq & rs & M);
      try apply mk_reset_ok; auto; try (apply wf_all; reflexivity).
    split; [exact C|]. split; [eexists; exists rq, rs; exact M|].
    destruct H as [-> | ->]; (split; [vm_compute; reflexivity|]; split; [apply latencyb_ok; vm_compute; reflexivity|];
      split; [apply latencyb_ok; vm_compute; reflexivity|vm_compute; reflexivity]).
  - assert (X : forall a b, forallb (fun x => Bool.eqb (i_req_en (snd x)) (i_req_en (fst x)) && Bool.eqb (i_resp_rdy (snd x)) (i_resp_rdy (fst x)) &&
       ((cq_type (i_req (snd x)) =? cq_type (i_req (fst x))) && (cq_opq (i_req (snd x)) =? cq_opq (i_req (fst x))) &&
        (cq_addr (i_req (snd x)) =? cq_addr (i_req (fst x))) && (cq_len (i_req (snd x)) =? cq_len (i_req (fst x))))) (combine a b) = true ->
       length a = length b -> Forall2 same_client a b).
    { induction a as [|x a IH]; intros [|y b] H L; try discriminate; constructor.
      - cbn [combine forallb fst snd] in H. rewrite !andb_true_iff, !N.eqb_eq in H.
        destruct H as [[[H1 H2] [[[H3 H4] H5] H6]] _]. constructor; try (apply Bool.eqb_prop; auto). intros _. unfold hide_creq. congruence.
      - apply IH; auto. cbn [combine forallb] in H. apply andb_true_iff in H. tauto. }
    apply X; vm_compute; reflexivity.
  - vm_compute. discriminate.
  - vm_compute. reflexivity.
Qed.
