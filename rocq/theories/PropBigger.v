(** C73: a bigger cache is never worse. *)
From Coq Require Import NArith List Bool Lia.
From Verif Require Import Bits Params Msg Rtl Mem Spec System Traffic Harness ExactSpec ScheduleSpec LatSpec Lat4 PropLat Hide MultiSys Proto BiggerSpec Bigger5 Bigger6.
Import ListNotations.
Open Scope N_scope.

(** C73.  [q] has at least the sets and the ways of [p].  Two runs, with any clients, memories and
    schedules, accept requests of the same types, addresses and lengths up to number [j].  Then
    request [j] hits in the bigger cache if it hits in the smaller. *)
Theorem C73_hits : forall p q s0 is s0' is' j y y', wf_params p -> wf_params q -> bigger p q ->
  proto_run p s0 is -> proto_run q s0' is' ->
  let tr := trace_of p s0 is in let tr' := trace_of q s0' is' in
  firstn (S j) (map addr_of (accepted tr)) = firstn (S j) (map addr_of (accepted tr')) ->
  nth_error (responses tr) j = Some y -> nth_error (responses tr') j = Some y' -> cr_test y <= cr_test y'.
Proof. exact (fun p q s0 is s0' is' j y y' W W' B => bigger_hits p q W W' B s0 is s0' is' j y y'). Qed.
Print Assumptions C73_hits.

(** And it asks no more of memory: no line is refilled more often, no line and no word of a line
    is written back more often, and there are not more requests in total.  (The run of the smaller
    cache is complete; the other need not be.) *)
Theorem C73_traffic : forall p q s0 is s0' is', wf_params p -> wf_params q -> bigger p q ->
  proto_run p s0 is -> proto_run q s0' is' ->
  let tr := trace_of p s0 is in let tr' := trace_of q s0' is' in
  map addr_of (accepted tr) = map addr_of (accepted tr') -> length (responses tr) = length (accepted tr) ->
  (forall l, length (refills p l tr') <= length (refills p l tr))%nat /\
  (forall l, length (writebacks p l tr') <= length (writebacks p l tr))%nat /\
  (forall l j, length (word_writebacks p l j tr') <= length (word_writebacks p l j tr))%nat /\
  (length (memreqs tr') <= length (memreqs tr))%nat.
Proof. exact (fun p q s0 is s0' is' W W' B => bigger_traffic p q W W' B s0 is s0' is'). Qed.
Print Assumptions C73_traffic.

(** Also for caches among others, each in its own system, whatever the other caches do. *)
Theorem C73_among_others : forall p q z z' n n' s0 m0 ts m rq rs s0' m0' ts' m' rq' rs' i i', wf_caches p z n -> wf_caches q z' n' ->
  clients p z n s0 ts -> mmem p n m0 no_reqs no_resps ts m rq rs -> (i < n)%nat ->
  clients q z' n' s0' ts' -> mmem q n' m0' no_reqs no_resps ts' m' rq' rs' -> (i' < n')%nat ->
  bigger (sized p z i) (sized q z' i') ->
  (forall j y y', firstn (S j) (map addr_of (accepted (proj i ts))) = firstn (S j) (map addr_of (accepted (proj i' ts'))) ->
     nth_error (responses (proj i ts)) j = Some y -> nth_error (responses (proj i' ts')) j = Some y' -> cr_test y <= cr_test y') /\
  (map addr_of (accepted (proj i ts)) = map addr_of (accepted (proj i' ts')) -> length (responses (proj i ts)) = length (accepted (proj i ts)) ->
     (forall l, length (refills (sized p z i) l (proj i' ts')) <= length (refills (sized p z i) l (proj i ts)))%nat /\
     (forall l, length (writebacks (sized p z i) l (proj i' ts')) <= length (writebacks (sized p z i) l (proj i ts)))%nat /\
     (forall l j, length (word_writebacks (sized p z i) l j (proj i' ts')) <= length (word_writebacks (sized p z i) l j (proj i ts)))%nat /\
     (length (memreqs (proj i' ts')) <= length (memreqs (proj i ts)))%nat).
Proof. exact (fun p q z z' n n' s0 m0 ts m rq rs s0' m0' ts' m' rq' rs' i i' W W' => multi_bigger p q z z' n n' W W' s0 m0 ts m rq rs s0' m0' ts' m' rq' rs' i i'). Qed.
Print Assumptions C73_among_others.

(** Direct mapped with four sets; two ways with four sets. *)
Definition px2 : params := mkParams 128 2 128 16 8 32.
Lemma px2_wf : wf_params px2.
Proof. constructor; cbn; try lia; try (exists 7; split; [reflexivity | lia]); try (exists 2; split; [lia | reflexivity]). Qed.
Definition prog_c : list creq :=
  [ wt 1 0x10 0 1; rd 2 0x50 0; wt 3 0x14 0 2; rd 4 0x54 0; mkCReq T_AMO_ADD 5 0x50 0 1; rd 6 0x10 0; wt 7 0x90 0 3; rd 8 0x18 0;
    mkCReq T_INV 9 0 0 0; rd 10 0x90 0; rd 11 0x10 0; wt 12 0xd0 0 4; mkCReq T_FLUSH 13 0 0 0; rd 14 0xd0 0; rd 15 0x1c 0 ].
Definition is_c (p : params) : list inp := is_a p prog_c (lively 200 0).
Definition counts_c (tr : trace) : list nat := [ length (refills px1 1 tr); length (writebacks px1 1 tr); length (word_writebacks px1 1 1 tr); length (memreqs tr) ].
Example C73_example : bigger px1 px2 /\ proto_run px1 (s0_a px1) (is_c px1) /\ proto_run px2 (s0_a px2) (is_c px2) /\
  let tr := trace_of px1 (s0_a px1) (is_c px1) in let tr' := trace_of px2 (s0_a px2) (is_c px2) in
  accepted tr = prog_c /\ accepted tr' = prog_c /\ length (responses tr) = 15%nat /\ length (responses tr') = 15%nat /\
  map cr_test (responses tr) = [0; 0; 0; 0; 0; 0; 0; 0; 0; 0; 0; 0; 0; 1; 0] /\
  map cr_test (responses tr') = [0; 0; 1; 1; 0; 1; 0; 1; 0; 0; 0; 0; 0; 1; 1] /\
  counts_c tr = [6; 2; 1; 16]%nat /\ counts_c tr' = [2; 1; 1; 10]%nat.
Proof.
  split; [unfold bigger; vm_compute; repeat split; discriminate|].
  split; [eapply sys_proto; apply run_a, wf_all; reflexivity|]. split; [eapply sys_proto; apply run_a, wf_all; reflexivity|].
  vm_compute. repeat split; reflexivity.
Qed.

(** It has to be sets as well as ways: with the same number of lines, two ways (and half the sets)
    can hit less and ask more of memory than one way. *)
Definition prog_e : list creq := [ rd 1 0x20 0; rd 2 0x00 0; rd 3 0x40 0; rd 4 0x20 0; rd 5 0x00 0; rd 6 0x40 0; rd 7 0x20 0 ].
Theorem C73_same_capacity_refuted : exists p q s0 is s0' is', wf_params p /\ wf_params q /\
  p_clw q = p_clw p /\ p_dbw q = p_dbw p /\ p_num_bytes q = p_num_bytes p /\ p_assoc p < p_assoc q /\
  proto_run p s0 is /\ proto_run q s0' is' /\
  let tr := trace_of p s0 is in let tr' := trace_of q s0' is' in
  accepted tr = accepted tr' /\ length (responses tr) = length (accepted tr) /\ length (responses tr') = length (accepted tr') /\
  map cr_test (responses tr) = [0; 0; 0; 1; 0; 0; 1] /\ map cr_test (responses tr') = [0; 0; 0; 0; 0; 0; 0] /\
  (length (memreqs tr) < length (memreqs tr'))%nat.
Proof.
  exists px1, px, (s0_a px1), (is_a px1 prog_e (lively 200 0)), (s0_a px), (is_a px prog_e (lively 200 0)).
  split; [exact px1_wf|]. split; [exact px_wf|]. do 4 (split; [reflexivity|]).
  split; [eapply sys_proto; apply run_a, wf_all; reflexivity|]. split; [eapply sys_proto; apply run_a, wf_all; reflexivity|].
  vm_compute. repeat split; auto.
Qed.
Print Assumptions C73_same_capacity_refuted.

(** And it is never slower.  Both caches are given requests and take responses as fast as they can;
    the memory of the smaller answers after [L] cycles, that of the bigger one after [L'], no more.
    Requests number 0 to [j] have the same types, addresses and lengths and are no INV and no FLUSH.
    Then, counted from the first cycle in which the cache can take a request, [total_lines] cycles
    after reset, number [j] is accepted no later in the bigger cache, and answered no later. *)
Theorem C73_time : forall p q L L' total total' s0 is s0' is' j t t', wf_params p -> wf_params q -> bigger p q -> (1 <= L' <= L)%nat ->
  proto_run p s0 is -> proto_run q s0' is' ->
  let tr := trace_of p s0 is in let tr' := trace_of q s0' is' in
  prompt total [] tr = true -> latency L tr -> (length (accepted tr) <= total)%nat ->
  prompt total' [] tr' = true -> latency L' tr' -> (length (accepted tr') <= total')%nat ->
  firstn (S j) (map addr_of (accepted tr)) = firstn (S j) (map addr_of (accepted tr')) ->
  Forall (fun r => cq_type r <> T_INV /\ cq_type r <> T_FLUSH) (firstn (S j) (accepted tr)) ->
  (nth_error (accept_cycles tr) j = Some t /\ nth_error (accept_cycles tr') j = Some t') \/
  (nth_error (answer_cycles tr) j = Some t /\ nth_error (answer_cycles tr') j = Some t') ->
  (t' + N.to_nat (total_lines p) <= t + N.to_nat (total_lines q))%nat.
Proof. exact (fun p q L L' total total' s0 is s0' is' j t t' W W' B HL => bigger_time p q W W' B L L' HL total total' s0 is s0' is' j t t'). Qed.
Print Assumptions C73_time.

Definition prog_t : list creq :=
  [ wt 1 0x10 0 1; rd 2 0x50 0; wt 3 0x14 0 2; rd 4 0x54 0; mkCReq T_AMO_ADD 5 0x50 0 1; rd 6 0x10 0; wt 7 0x90 0 3; rd 8 0x18 0; rd 9 0x90 0; wt 10 0xd0 0 4; rd 11 0x10 0 ].
Definition is_t (p : params) (L n : nat) (prog : list creq) : list inp := is_a p prog (lat_choices p (s0_a p) mem_a [] prog (repeat false L) n).
Example C73_time_example : let tr := trace_of px1 (s0_a px1) (is_t px1 4 150 prog_t) in let tr' := trace_of px2 (s0_a px2) (is_t px2 2 150 prog_t) in
  bigger px1 px2 /\ proto_run px1 (s0_a px1) (is_t px1 4 150 prog_t) /\ proto_run px2 (s0_a px2) (is_t px2 2 150 prog_t) /\
  prompt 11 [] tr = true /\ latency 4 tr /\ prompt 11 [] tr' = true /\ latency 2 tr' /\ accepted tr = prog_t /\ accepted tr' = prog_t /\
  total_lines px1 = 4 /\ total_lines px2 = 8 /\
  accept_cycles tr = [4; 13; 23; 32; 42; 50; 59; 68; 78; 87; 96]%nat /\ accept_cycles tr' = [8; 15; 22; 24; 25; 31; 32; 39; 40; 41; 49]%nat /\
  answer_cycles tr = [14; 24; 33; 43; 51; 60; 69; 79; 88; 97; 107]%nat /\ answer_cycles tr' = [16; 23; 24; 26; 32; 33; 40; 41; 42; 50; 58]%nat.
Proof.
  intros tr tr'. split; [unfold bigger; vm_compute; repeat split; discriminate|].
  split; [eapply sys_proto; apply run_a, wf_all; reflexivity|]. split; [eapply sys_proto; apply run_a, wf_all; reflexivity|].
  split; [vm_compute; reflexivity|]. split; [apply latencyb_ok; vm_compute; reflexivity|].
  split; [vm_compute; reflexivity|]. split; [apply latencyb_ok; vm_compute; reflexivity|].
  vm_compute. repeat split; reflexivity.
Qed.

(** FLUSH is another matter: it walks over more lines, and waits for every line a smaller cache
    has written back before. *)
Definition prog_u : list creq := [ wt 1 0x10 0 1; wt 2 0x50 0 2; wt 3 0x90 0 3; mkCReq T_FLUSH 4 0 0 0 ].
Theorem C73_flush_time_refuted : exists p q s0 is s0' is', wf_params p /\ wf_params q /\ bigger p q /\
  proto_run p s0 is /\ proto_run q s0' is' /\
  let tr := trace_of p s0 is in let tr' := trace_of q s0' is' in
  prompt 4 [] tr = true /\ latency 1 tr /\ accepted tr = prog_u /\
  prompt 4 [] tr' = true /\ latency 1 tr' /\ accepted tr' = prog_u /\
  total_lines p = 4 /\ total_lines q = 8 /\
  answer_cycles tr = [11; 18; 25; 35]%nat /\ answer_cycles tr' = [15; 21; 28; 46]%nat.
Proof.
  exists px1, px2, (s0_a px1), (is_t px1 1 90 prog_u), (s0_a px2), (is_t px2 1 90 prog_u).
  split; [exact px1_wf|]. split; [exact px2_wf|]. split; [unfold bigger; vm_compute; repeat split; discriminate|].
  split; [eapply sys_proto; apply run_a, wf_all; reflexivity|]. split; [eapply sys_proto; apply run_a, wf_all; reflexivity|].
  intros tr tr'. split; [vm_compute; reflexivity|]. split; [apply latencyb_ok; vm_compute; reflexivity|]. split; [vm_compute; reflexivity|].
  split; [vm_compute; reflexivity|]. split; [apply latencyb_ok; vm_compute; reflexivity|].
  vm_compute. repeat split; reflexivity.
Qed.
Print Assumptions C73_flush_time_refuted.
