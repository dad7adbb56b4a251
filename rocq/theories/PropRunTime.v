(** C60: how long a program takes. *)
From Coq Require Import PeanoNat NArith List Bool Lia.
From Verif Require Import Bits Params Msg Rtl Mem Spec System Harness SysProofs Hide Proto FlModel Bench PropBench LiveSpec TimeSpec RunTime RunTime2.
Import ListNotations.
Open Scope N_scope.

(** C60.  No schedule makes the cache faster: if the request accepted in cycle [i] is answered
    in cycle [j], at least [service p r n] cycles have passed ([n]: the memory requests made since). *)
Theorem C60_not_earlier : forall p is2 is i j s0, wf_params p -> proto_run p s0 ((is ++ [i]) ++ is2 ++ [j]) -> i_req_en i = true ->
  let tr1 := trace_of p s0 (is ++ [i]) in let s1 := fst (run p s0 (is ++ [i])) in
  (length (responses (tr1 ++ trace_of p s1 is2)) < length (accepted tr1))%nat ->
  (length (accepted tr1) <= length (responses (tr1 ++ trace_of p s1 (is2 ++ [j]))))%nat ->
  (service p (i_req i) (length (memreqs (trace_of p s1 (is2 ++ [j])))) <= length (is2 ++ [j]))%nat.
Proof. exact (fun p is2 is i j s0 W => proto_not_earlier p W is2 is i j s0). Qed.
Print Assumptions C60_not_earlier.

(** The next request, accepted in cycle [j], is accepted at most one cycle before the answer could come. *)
Theorem C60_spacing : forall p is2 is i j s0, wf_params p -> proto_run p s0 ((is ++ [i]) ++ is2 ++ [j]) -> i_req_en i = true ->
  let tr2 := trace_of p (fst (run p s0 (is ++ [i]))) is2 in
  accepted tr2 = [] -> i_req_en j = true -> (service p (i_req i) (length (memreqs tr2)) - 1 <= length (is2 ++ [j]))%nat.
Proof.
  intros p is2 is i j s0 W P RE tr2 NA RJ. pose proof (proto_spacing p W is2 is i j s0 P RE NA RJ). rewrite app_length. cbn [length]. fold tr2 in H. lia.
Qed.
Print Assumptions C60_spacing.

(** A run that has answered the requests [R] is at least so long: one cycle for each line (C17),
    one for each request, but one for each line and 2 for INV and FLUSH, and 2. *)
Theorem C60_least_time : forall p is s0, wf_params p -> proto_run p s0 is -> responses (trace_of p s0 is) <> [] ->
  let tr := trace_of p s0 is in let R := firstn (length (responses tr)) (accepted tr) in
  (N.to_nat (total_lines p) + least_time p R + 2 <= length is)%nat.
Proof. exact (fun p is s0 W => proto_least p W is s0). Qed.
Print Assumptions C60_least_time.

(** A client with [total] requests to make has all its answers when there have been more than so many
    productive cycles in which it did not decline to send. *)
Theorem C60_most_time : forall p total is s0, wf_params p -> proto_run p s0 is ->
  (N.to_nat (total_lines p) + most_time p (accepted (trace_of p s0 is)) < offer_cycles total [] (trace_of p s0 is))%nat ->
  (total <= length (responses (trace_of p s0 is)))%nat.
Proof. exact (fun p total is s0 W => proto_most p W total is s0). Qed.
Print Assumptions C60_most_time.

(** That is at most 9 for each request, and 5 for each line and 4 for each INV and FLUSH. *)
Theorem C60_most_time_bound : forall p R,
  (most_time p R <= 9 * length R + (5 * N.to_nat (total_lines p) + 4) * length (filter walks R))%nat.
Proof. exact most_bound. Qed.
Print Assumptions C60_most_time_bound.

(** So every list of transactions of the property-based tests passes, given that much time. *)
Theorem C60_tests_in_time : forall p w ds xs, hyp_config p -> (length ds <= 200)%nat ->
  Forall (drawable p 0 (p_num_bytes p / 4 * 2 * p_assoc p)) ds -> hyp_bench p w ds = Some xs ->
  forall s0 is m0 m rq rs, sys_run p s0 is m0 m rq rs ->
  (forall a, a < 2 ^ 32 -> trunc 8 (m0 a) = trunc 8 (load_words (rand_mem 0 (p_num_bytes p / 4 * 2 * p_assoc p) w) a)) ->
  (exists rest, map fst xs = accepted (trace_of p s0 is) ++ rest) ->
  (N.to_nat (total_lines p) + most_time p (map fst xs) < offer_cycles (length xs) [] (trace_of p s0 is))%nat ->
  responses (trace_of p s0 is) = map snd xs.
Proof. exact hyp_in_time. Qed.
Print Assumptions C60_tests_in_time.

(** But the simulation stops after 20000 cycles (sim_utils.py 40-77), and there are lists
    of transactions for which no schedule is fast enough: the test fails though the cache is correct. *)
Theorem C60_time_limit_refuted : exists p w ds xs, hyp_config p /\ (length ds <= 200)%nat /\
  Forall (drawable p 0 (p_num_bytes p / 4 * 2 * p_assoc p)) ds /\ hyp_bench p w ds = Some xs /\
  forall s0 is, proto_run p s0 is -> (exists rest, map fst xs = accepted (trace_of p s0 is) ++ rest) ->
  N.of_nat (length is) <= 20000 -> (length (responses (trace_of p s0 is)) < length xs)%nat.
Proof. exact times_out. Qed.
Print Assumptions C60_time_limit_refuted.

(** C44's transactions, with nothing to wait for. *)
Definition s_t : st := mk_reset p_b junk_t junk_d.
Definition is_t : list inp := fst (drive p_b s_t (load_words (rand_mem 0 64 w_b)) [] (map fst xs_b) (eager 300)).
(** the cycle (from 1) of the [k]-th event *)
Fixpoint nth_event (f : inp * outp -> bool) (k : nat) (tr : trace) : nat :=
  match tr with
  | [] => 0
  | io :: tr => if f io then match k with 1 => 1 | _ => S (nth_event f (k - 1) tr) end else S (nth_event f k tr)
  end%nat.
Definition acc_cycle (k : nat) : nat := nth_event (fun io => i_req_en (fst io)) k (trace_of p_b s_t is_t).
Definition resp_cycle (k : nat) : nat := nth_event (fun io => match o_resp (snd io) with Some _ => true | None => false end) k (trace_of p_b s_t is_t).
Example C60_example : hyp_config p_b /\ Forall (drawable p_b 0 64) ds_b /\ hyp_bench p_b w_b ds_b = Some xs_b /\
  (exists m rq rs, sys_run p_b s_t is_t (load_words (rand_mem 0 64 w_b)) m rq rs) /\
  accepted (trace_of p_b s_t is_t) = map fst xs_b /\ offer_cycles (length xs_b) [] (trace_of p_b s_t is_t) = 300%nat /\
  N.to_nat (total_lines p_b) = 4%nat /\ least_time p_b (map fst xs_b) = 21%nat /\ most_time p_b (map fst xs_b) = 111%nat /\
  resp_cycle (length xs_b) = 57%nat.
Proof.
  destruct C44_example as (H1 & _ & H2 & H3 & _). repeat (split; [assumption|]).
  split; [|vm_compute; repeat split; reflexivity].
  assert (WF : Forall (wf_req p_b) (map fst xs_b)) by (apply wf_all; vm_compute; auto).
  do 3 eexists. exact (drive_sys p_b (eager 300) junk_t junk_d (load_words (rand_mem 0 64 w_b)) (map fst xs_b) WF).
Qed.
(** The fourth request is the first AMO; its cycles and those up to the fifth. *)
Example C60_example_one : let k := acc_cycle 4 in
  let is := firstn (k - 1) is_t in let i := nth (k - 1) is_t (mkInp false (mkCReq 0 0 0 0 0) false false false (mkMResp 0 0 0 0)) in
  let d := resp_cycle 4 in
  let is2 := firstn (d - k) (skipn k is_t) in
  i_req_en i = true /\ cq_type (i_req i) = T_AMO_ADD /\ firstn d is_t = (is ++ [i]) ++ is2 /\
  length is2 = 7%nat /\ service p_b (i_req i) (length (memreqs (trace_of p_b (fst (run p_b s_t (is ++ [i]))) is2))) = 7%nat.
Proof. vm_compute. repeat split. Qed.
