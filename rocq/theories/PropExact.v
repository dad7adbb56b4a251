(** C61: the memory traffic is determined by the program. *)
From Coq Require Import Arith NArith List Bool Lia.
From Verif Require Import Bits Params Msg Rtl Mem Spec System Traffic MultiSys Hide Harness Proto TimeSpec ExactSpec Exact2.
Import ListNotations.
Open Scope N_scope.

(** C61.  At every moment, for any client, schedule and memory data, the memory requests made so far
    are, in type, address, length and mask, the first of those predicted for the requests accepted so
    far, and all those predicted for the requests answered so far have been made. *)
Theorem C61_exact_traffic : forall p s0 is, wf_params p -> proto_run p s0 is ->
  let tr := trace_of p s0 is in
  (exists rest, concat (predict p (accepted tr)) = map shape_of (memreqs tr) ++ rest) /\
  (exists mid, map shape_of (memreqs tr) = concat (firstn (length (responses tr)) (predict p (accepted tr))) ++ mid).
Proof. exact (fun p s0 is W => proto_exact_traffic p W s0 is). Qed.
Print Assumptions C61_exact_traffic.

(** When all requests are answered, they are exactly the predicted ones. *)
Theorem C61_prediction : forall p s0 is, wf_params p -> proto_run p s0 is ->
  let tr := trace_of p s0 is in length (responses tr) = length (accepted tr) ->
  map shape_of (memreqs tr) = concat (predict p (accepted tr)).
Proof. exact (fun p s0 is W => proto_exact_done p W s0 is). Qed.
Print Assumptions C61_prediction.

(** Two executions, from any two states after reset, with any memories and schedules, of programs with
    the same types, addresses and lengths make the same memory requests. *)
Theorem C61_deterministic : forall p s0 is s0' is', wf_params p -> proto_run p s0 is -> proto_run p s0' is' ->
  let tr := trace_of p s0 is in let tr' := trace_of p s0' is' in
  map addr_of (accepted tr) = map addr_of (accepted tr') ->
  length (responses tr) = length (accepted tr) -> length (responses tr') = length (accepted tr') ->
  map shape_of (memreqs tr) = map shape_of (memreqs tr').
Proof. exact (fun p s0 is s0' is' W => proto_same_traffic p W s0 is s0' is'). Qed.
Print Assumptions C61_deterministic.

(** The exact time of every request, computed from the program: the request accepted in cycle [i] is
    answered in cycle [j]; both sides are ready meanwhile. *)
Theorem C61_exact_time : forall p is2 is i j s0, wf_params p -> proto_run p s0 ((is ++ [i]) ++ is2 ++ [j]) -> i_req_en i = true ->
  let tr1 := trace_of p s0 (is ++ [i]) in let s1 := fst (run p s0 (is ++ [i])) in
  let tr2 := trace_of p s1 (is2 ++ [j]) in
  Forall (fun i => i_resp_rdy i && i_mreq_rdy i = true) (is2 ++ [j]) ->
  (length (responses (tr1 ++ trace_of p s1 is2)) < length (accepted tr1))%nat ->
  (length (accepted tr1) <= length (responses (tr1 ++ tr2)))%nat ->
  productive_cycles tr1 tr2 = service p (i_req i) (length (fst (x_step p (x_after p x_empty (accepted (trace_of p s0 is))) (i_req i)))).
Proof. exact (fun p is2 is i j s0 W => proto_exact_time p W is2 is i j s0). Qed.
Print Assumptions C61_exact_time.

(** Each of several caches sharing a memory: its traffic is that of its own program, whatever the others do. *)
Theorem C61_among_others : forall p z n s0 m0 ts m rq rs i, wf_caches p z n -> clients p z n s0 ts ->
  mmem p n m0 no_reqs no_resps ts m rq rs -> (i < n)%nat ->
  length (responses (proj i ts)) = length (accepted (proj i ts)) ->
  map shape_of (memreqs (proj i ts)) = concat (predict (sized p z i) (accepted (proj i ts))).
Proof. exact (fun p z n s0 m0 ts m rq rs i W => multi_exact_done p z n W s0 m0 ts m rq rs i). Qed.
Print Assumptions C61_among_others.

(** Two ways, two sets, four words a line.  [prog_a] and INV with a dirty line that is used again. *)
Definition prog_x : list creq := prog_a ++ [wt 17 0x94 0 1; mkCReq T_INV 18 0 0 0; rd 19 0x90 0; wt 20 0xb0 1 2; rd 21 0xd0 0; mkCReq T_AMO_OR 22 0xb0 0 1; mkCReq T_FLUSH 23 0 0 0].
Definition wr (a k : N) : shape := mkShape T_WRITE a 0 k.
Definition rf (a : N) : shape := mkShape T_READ a 0 0.
Example C61_example_predict : predict px prog_x =
  [[rf 0x10]; []; []; []; [rf 0x30]; [wr 0x10 1; rf 0x50]; [rf 0x70]; [rf 0x10]; [mkShape T_AMO_ADD 0x10 4 0]; [rf 0x10]; [];
   [rf 0x70]; [rf 0x20]; [wr 0x70 1; wr 0x20 12]; []; []; [rf 0x90]; []; [rf 0x90]; [rf 0xb0]; [wr 0x90 2; rf 0xd0];
   [wr 0xb0 1; mkShape T_AMO_OR 0xb0 4 0]; []].
Proof. vm_compute. reflexivity. Qed.

Definition is_x : list inp := is_a px prog_x (lively 600 0).
Example C61_example : (exists m rq rs, sys_run px (s0_a px) is_x mem_a m rq rs) /\ proto_run px (s0_a px) is_x /\
  let tr := trace_of px (s0_a px) is_x in
  accepted tr = prog_x /\ length (responses tr) = 23%nat /\ map shape_of (memreqs tr) = concat (predict px prog_x) /\ length (memreqs tr) = 19%nat.
Proof.
  assert (WF : Forall (wf_req px) prog_x) by (apply wf_all; vm_compute; auto).
  assert (S : exists m rq rs, sys_run px (s0_a px) is_x mem_a m rq rs) by (do 3 eexists; apply run_a; auto).
  split; auto. split; [destruct S as (m & rq & rs & S); eapply sys_proto; eauto using px_wf|].
  vm_compute. repeat split; reflexivity.
Qed.
