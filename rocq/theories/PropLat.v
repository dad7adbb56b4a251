(** C63: the schedule of a program with a memory of fixed latency. *)
From Coq Require Import Arith NArith List Bool Lia.
From Verif Require Import Bits Params Msg Rtl Mem Spec System Traffic Hide Harness Proto TimeSpec ExactSpec Service ScheduleSpec LatSpec Lat3 Lat4 PropExact PropSchedule.
Import ListNotations.
Open Scope N_scope.

(** C63.  If the memory answers every request [L] cycles after it is sent and nobody else makes the
    cache wait, requests are accepted and answered exactly in the cycles computed from the
    program and [L]: every wait for memory takes [L]-1 cycles more than in C62. *)
Theorem C63_schedule : forall p L total s0 is, wf_params p -> (1 <= L)%nat -> proto_run p s0 is ->
  let tr := trace_of p s0 is in prompt total [] tr = true -> latency L tr -> (length (accepted tr) <= total)%nat ->
  accept_cycles tr = lat_starts p L (accepted tr) /\
  answer_cycles tr = filter (fun t => Nat.ltb t (length is)) (lat_ends p L (accepted tr)) /\
  ((length (accepted tr) < total)%nat -> (length is <= lat_next p L (accepted tr))%nat).
Proof.
  exact (fun p L total s0 is W G P NW LA LT => match schedule p W L G total is s0 P NW LA LT with conj a b => conj a (conj (answers p W L G total is s0 P NW LA LT) b) end).
Qed.
Print Assumptions C63_schedule.

(** A request accepted in cycle [i] is answered [lat_service] cycles later, not earlier and not later. *)
Theorem C63_answered : forall p L is2 is i s0, wf_params p -> (1 <= L)%nat -> proto_run p s0 ((is ++ [i]) ++ is2) -> i_req_en i = true ->
  Forall (fun j => i_resp_rdy j && i_mreq_rdy j = true) is2 ->
  let tr1 := trace_of p s0 (is ++ [i]) in let s1 := fst (run p s0 (is ++ [i])) in let tr2 := trace_of p s1 is2 in
  latency L (tr1 ++ tr2) ->
  (length (accepted tr1) <= length (responses (tr1 ++ tr2)))%nat <->
  (lat_service p L (i_req i) (made p (x_after p x_empty (accepted (trace_of p s0 is))) (i_req i)) <= length is2)%nat.
Proof. exact (fun p L is2 is i s0 W G => lat_answered_iff p W L G is2 is i s0). Qed.
Print Assumptions C63_answered.

(** What latency costs: the request with [n] others before it is accepted in the cycle of C62,
    and [L]-1 cycles later for every wait of those [n]. *)
Theorem C63_cost : forall p L total s0 is, wf_params p -> (1 <= L)%nat -> proto_run p s0 is ->
  let tr := trace_of p s0 is in prompt total [] tr = true -> latency L tr -> (length (accepted tr) <= total)%nat ->
  forall n, (n < length (accepted tr))%nat ->
  nth_error (accept_cycles tr) n = Some (next_start p (firstn n (accepted tr)) + (L - 1) * mem_waits p (firstn n (accepted tr)))%nat.
Proof. exact (fun p L total s0 is W => latency_cost p W L total s0 is). Qed.
Print Assumptions C63_cost.

(** The program of C62 with a memory that answers after [L] cycles. *)
Fixpoint lat_choices (p : params) (s : st) (m : mem) (rs : list mresp) (todo : list creq) (q : list bool) (n : nat) : list choice :=
  match n with
  | O => []
  | S n =>
      let c := mkCh true true true (hd false q) in let i := inp_of p s rs todo c in let o := output p s i in
      let rs1 := if i_mresp_en i then tl rs else rs in
      let '(m2, rs2) := match o_mreq o with Some r => let '(m2, x) := mem_exec p m r in (m2, rs1 ++ [x]) | None => (m, rs1) end in
      c :: lat_choices p (next p s i) m2 rs2 (if i_req_en i then tl todo else todo)
             (tl q ++ [match o_mreq o with Some _ => true | None => false end]) n
  end.
Definition is_l (L n : nat) : list inp := is_a px prog_s (lat_choices px (s0_a px) mem_a [] prog_s (repeat false L) n).
Definition is_l4 : list inp := Eval vm_compute in is_l 4 80.
Example C63_example : proto_run px (s0_a px) is_l4 /\
  let tr := trace_of px (s0_a px) is_l4 in
  prompt 11 [] tr = true /\ latency 4 tr /\ accepted tr = prog_s /\
  accept_cycles tr = [4; 13; 15; 16; 17; 26; 36; 45; 47; 53; 66]%nat /\
  lat_starts px 4 prog_s = accept_cycles tr /\ lat_ends px 4 prog_s = answer_cycles tr /\ mem_waits px prog_s = 6%nat.
Proof.
  assert (WF : Forall (wf_req px) prog_s) by (apply wf_all; vm_compute; auto).
  assert (E : is_l4 = is_l 4 80) by (vm_compute; reflexivity).
  split; [rewrite E; eapply sys_proto; eauto using px_wf, run_a|].
  split; [vm_compute; reflexivity|]. split; [apply latencyb_ok; vm_compute; reflexivity|].
  vm_compute. repeat split; reflexivity.
Qed.
