(** C54: the exact time each request takes. *)
From Coq Require Import Arith NArith List Bool Lia.
From Verif Require Import Bits Params Msg Rtl Mem Spec System Traffic MultiSys Hide SysProofs Harness Proto LiveMulti TimeSpec Service Service2.
Import ListNotations.
Open Scope N_scope.

(** C54.  The request accepted in cycle [i] is answered at the latest in the
    [service p r n]-th productive cycle after it, where [n] is the number of memory
    requests made since (2 for a READ or WRITE hit, 6+n for a miss, 5+n for an AMO,
    lines+3 for INV, lines+3+4n for FLUSH), whatever data memory answers. *)
Theorem C54_service_bound : forall p is2 is i s0, wf_params p -> proto_run p s0 ((is ++ [i]) ++ is2) -> i_req_en i = true ->
  let tr1 := trace_of p s0 (is ++ [i]) in let tr2 := trace_of p (fst (run p s0 (is ++ [i]))) is2 in
  (service p (i_req i) (length (memreqs tr2)) <= productive_cycles tr1 tr2)%nat ->
  (length (accepted tr1) <= length (responses (tr1 ++ tr2)))%nat.
Proof. exact (fun p is2 is i s0 W => proto_service_bound p W is2 is i s0). Qed.
Print Assumptions C54_service_bound.

(** Nor is it answered earlier: if both sides are ready in all cycles after [i] and
    [j] is the cycle of its response, exactly so many of the cycles were productive. *)
Theorem C54_service_exact : forall p is2 is i j s0, wf_params p -> proto_run p s0 ((is ++ [i]) ++ is2 ++ [j]) -> i_req_en i = true ->
  let tr1 := trace_of p s0 (is ++ [i]) in let s1 := fst (run p s0 (is ++ [i])) in
  let tr2 := trace_of p s1 (is2 ++ [j]) in
  Forall (fun i => i_resp_rdy i && i_mreq_rdy i = true) (is2 ++ [j]) ->
  (length (responses (tr1 ++ trace_of p s1 is2)) < length (accepted tr1))%nat ->
  (length (accepted tr1) <= length (responses (tr1 ++ tr2)))%nat ->
  productive_cycles tr1 tr2 = service p (i_req i) (length (memreqs tr2)).
Proof. exact (fun p is2 is i j s0 W => proto_service_exact p W is2 is i j s0). Qed.
Print Assumptions C54_service_exact.

(** The time is determined by the requests accepted so far: [g], the last group of their
    traffic, are the memory requests this request needs. *)
Theorem C54_predicted : forall p m0 is2 is i j s0, wf_params p -> proto_run p s0 ((is ++ [i]) ++ is2 ++ [j]) -> i_req_en i = true ->
  let tr1 := trace_of p s0 (is ++ [i]) in let s1 := fst (run p s0 (is ++ [i])) in
  let tr2 := trace_of p s1 (is2 ++ [j]) in
  Forall (fun i => i_resp_rdy i && i_mreq_rdy i = true) (is2 ++ [j]) ->
  (length (responses (tr1 ++ trace_of p s1 is2)) < length (accepted tr1))%nat ->
  (length (accepted tr1) <= length (responses (tr1 ++ tr2)))%nat ->
  exists G g, traffic p (fun _ => false) lru_empty m0 (accepted tr1) (G ++ [g]) /\ map hide_mreq (concat G) = map hide_mreq (memreqs tr1) /\
    productive_cycles tr1 tr2 = service p (i_req i) (length g).
Proof. exact (fun p m0 is2 is i j s0 W => proto_predicted p W m0 is2 is i j s0). Qed.
Print Assumptions C54_predicted.

(** So a READ or WRITE takes 2 productive cycles if its line is resident, else 7 or 8. *)
Theorem C54_hit_or_miss : forall p is2 is i j s0, wf_params p -> proto_run p s0 ((is ++ [i]) ++ is2 ++ [j]) -> i_req_en i = true -> rw_req (i_req i) = true ->
  let tr1 := trace_of p s0 (is ++ [i]) in let s1 := fst (run p s0 (is ++ [i])) in
  let tr2 := trace_of p s1 (is2 ++ [j]) in
  Forall (fun i => i_resp_rdy i && i_mreq_rdy i = true) (is2 ++ [j]) ->
  (length (responses (tr1 ++ trace_of p s1 is2)) < length (accepted tr1))%nat ->
  (length (accepted tr1) <= length (responses (tr1 ++ tr2)))%nat ->
  let l := line_of p (cq_addr (i_req i)) in let resident := lru_run p lru_empty (accepted (trace_of p s0 is)) (l mod nblocks p) in
  (In l resident -> productive_cycles tr1 tr2 = 2%nat) /\ (~ In l resident -> productive_cycles tr1 tr2 = 7%nat \/ productive_cycles tr1 tr2 = 8%nat).
Proof. exact (fun p is2 is i j s0 W => proto_hit_two p W is2 is i j s0). Qed.
Print Assumptions C54_hit_or_miss.

(** In cycles, for a memory that answers in the next cycle: *)
Theorem C54_exact_latency : forall p is2 is i j s0, wf_params p -> proto_run p s0 ((is ++ [i]) ++ is2 ++ [j]) -> i_req_en i = true ->
  let tr1 := trace_of p s0 (is ++ [i]) in let s1 := fst (run p s0 (is ++ [i])) in
  let tr2 := trace_of p s1 (is2 ++ [j]) in
  Forall (fun i => i_resp_rdy i && i_mreq_rdy i = true) (is2 ++ [j]) -> answers_within 0 tr1 tr2 ->
  (length (responses (tr1 ++ trace_of p s1 is2)) < length (accepted tr1))%nat ->
  (length (accepted tr1) <= length (responses (tr1 ++ tr2)))%nat ->
  length (is2 ++ [j]) = service p (i_req i) (length (memreqs tr2)).
Proof. exact (fun p is2 is i j s0 W => proto_exact p W is2 is i j s0). Qed.
Print Assumptions C54_exact_latency.

(** Between its acceptance and its response at most [max_traffic] memory requests are
    made: none for INV, one for each line for FLUSH, else two. *)
Theorem C54_traffic : forall p is2 is i s0, wf_params p -> proto_run p s0 ((is ++ [i]) ++ is2) -> i_req_en i = true ->
  let tr1 := trace_of p s0 (is ++ [i]) in let tr2 := trace_of p (fst (run p s0 (is ++ [i]))) is2 in
  (length (responses (tr1 ++ tr2)) < length (accepted tr1))%nat ->
  (length (memreqs tr2) <= max_traffic p (i_req i))%nat.
Proof. exact (fun p is2 is i s0 W => proto_service_traffic p W is2 is i s0). Qed.
Print Assumptions C54_traffic.

(** A worst case in cycles, when memory lets at most [L] cycles pass without an answer. *)
Theorem C54_worst_case : forall p L is2 is i s0, wf_params p -> proto_run p s0 ((is ++ [i]) ++ is2) -> i_req_en i = true ->
  let tr1 := trace_of p s0 (is ++ [i]) in let tr2 := trace_of p (fst (run p s0 (is ++ [i]))) is2 in
  Forall (fun i => i_resp_rdy i && i_mreq_rdy i = true) is2 -> answers_within L tr1 tr2 ->
  (service p (i_req i) (max_traffic p (i_req i)) + L * max_traffic p (i_req i) <= length is2)%nat ->
  (length (accepted tr1) <= length (responses (tr1 ++ tr2)))%nat.
Proof. exact (fun p L is2 is i s0 W => proto_worst p W L is2 is i s0). Qed.
Print Assumptions C54_worst_case.

(** The same for every cache among several that share a memory, whatever the others do. *)
Theorem C54_among_others : forall p z n s0 m0 ts1 ts2 m rq rs i t, wf_caches p z n -> clients p z n s0 ((ts1 ++ [t]) ++ ts2) ->
  mmem p n m0 no_reqs no_resps ((ts1 ++ [t]) ++ ts2) m rq rs -> (i < n)%nat -> i_req_en (fst (t i)) = true ->
  let tr1 := proj i (ts1 ++ [t]) in let tr2 := proj i ts2 in
  (service (sized p z i) (i_req (fst (t i))) (length (memreqs tr2)) <= productive_cycles tr1 tr2)%nat ->
  (length (accepted tr1) <= length (responses (tr1 ++ tr2)))%nat.
Proof. exact (fun p z n s0 m0 ts1 ts2 m rq rs i t W => multi_service_bound p z n W s0 m0 ts1 ts2 m rq rs i t). Qed.
Print Assumptions C54_among_others.
Theorem C54_among_others_worst_case : forall p z L n s0 m0 ts1 ts2 m rq rs i t, wf_caches p z n -> clients p z n s0 ((ts1 ++ [t]) ++ ts2) ->
  mmem p n m0 no_reqs no_resps ((ts1 ++ [t]) ++ ts2) m rq rs -> (i < n)%nat -> i_req_en (fst (t i)) = true ->
  let tr1 := proj i (ts1 ++ [t]) in let tr2 := proj i ts2 in
  Forall (fun io => i_resp_rdy (fst io) && i_mreq_rdy (fst io) = true) tr2 -> answers_within L tr1 tr2 ->
  (service (sized p z i) (i_req (fst (t i))) (max_traffic (sized p z i) (i_req (fst (t i)))) + L * max_traffic (sized p z i) (i_req (fst (t i))) <= length ts2)%nat ->
  (length (accepted tr1) <= length (responses (tr1 ++ tr2)))%nat.
Proof. exact (fun p z L n s0 m0 ts1 ts2 m rq rs i t W => multi_worst p z n W L s0 m0 ts1 ts2 m rq rs i t). Qed.
Print Assumptions C54_among_others_worst_case.

(** All kinds of request in one program: for each request its type, the cycles until
    its response, and the memory requests made in between. *)
Fixpoint find_resp (k : nat) (tr : trace) (d n : nat) : option (nat * nat) :=
  match tr with
  | [] => None
  | (i, o) :: tr => let n := (n + match o_mreq o with Some _ => 1 | None => 0 end)%nat in
     match o_resp o, k with
     | Some _, O => Some (S d, n)
     | Some _, S k => find_resp k tr (S d) n
     | None, _ => find_resp k tr (S d) n
     end
  end.
Fixpoint times (pend : nat) (tr : trace) : list (N * nat * nat) :=
  match tr with
  | [] => []
  | (i, o) :: tr => let pend := match o_resp o with Some _ => Nat.pred pend | None => pend end in
     if i_req_en i then (match find_resp pend tr 0 0 with Some (d, n) => [(cq_type (i_req i), d, n)] | None => [] end) ++ times (S pend) tr
     else times pend tr
  end.
Definition tr_t : trace := trace_of px (s0_a px) (is_a px prog_a (eager 200)).
Example C54_times : times 0 tr_t =
  [ (T_WRITE, 7, 1); (T_READ, 2, 0); (T_WRITE, 2, 0); (T_READ, 2, 0); (T_READ, 7, 1); (T_READ, 8, 2); (T_WRITE, 7, 1); (T_READ, 7, 1);
    (T_AMO_ADD, 6, 1); (T_READ, 7, 1); (T_INV, 7, 0); (T_READ, 7, 1); (T_WRITE, 7, 1); (T_FLUSH, 15, 2); (T_READ, 2, 0); (T_FLUSH, 7, 0) ]%nat /\
  forallb (fun '(t, d, n) => Nat.eqb d (service px (mkCReq t 0 0 0 0) n)) (times 0 tr_t) = true /\
  N.to_nat (total_lines px) = 4%nat.
Proof. vm_compute. auto. Qed.

(** The hypotheses of the exact theorem, at the sixth request: a READ that replaces a dirty line. *)
Definition is_t : list inp := is_a px prog_a (eager 28).
Definition in_t : inp := mkInp false (rd 0 0 0) false false false (mkMResp 0 0 0 0).
Definition a_t : list inp := firstn 19 is_t.
Definition i_t : inp := nth 19 is_t in_t.
Definition b_t : list inp := firstn 7 (skipn 20 is_t).
Definition j_t : inp := nth 27 is_t in_t.
Lemma split_t : is_t = (a_t ++ [i_t]) ++ b_t ++ [j_t].
Proof. vm_compute. reflexivity. Qed.
Lemma calc_t : let tr1 := trace_of px (s0_a px) (a_t ++ [i_t]) in let s1 := fst (run px (s0_a px) (a_t ++ [i_t])) in
  let tr2 := trace_of px s1 (b_t ++ [j_t]) in
  i_req_en i_t = true /\ i_req i_t = rd 6 0x50 0 /\ productive_cycles tr1 tr2 = length tr2 /\
  Nat.ltb (length (responses (tr1 ++ trace_of px s1 b_t))) (length (accepted tr1)) = true /\
  Nat.leb (length (accepted tr1)) (length (responses (tr1 ++ tr2))) = true /\
  length (b_t ++ [j_t]) = 8%nat /\ length (memreqs tr2) = 2%nat.
Proof. vm_compute. repeat split. Qed.
Lemma example_t : forall a i b j, proto_run px (s0_a px) ((a ++ [i]) ++ b ++ [j]) ->
  (let tr1 := trace_of px (s0_a px) (a ++ [i]) in let s1 := fst (run px (s0_a px) (a ++ [i])) in
  let tr2 := trace_of px s1 (b ++ [j]) in
  i_req_en i = true /\ i_req i = rd 6 0x50 0 /\ productive_cycles tr1 tr2 = length tr2 /\
  Nat.ltb (length (responses (tr1 ++ trace_of px s1 b))) (length (accepted tr1)) = true /\
  Nat.leb (length (accepted tr1)) (length (responses (tr1 ++ tr2))) = true /\
  length (b ++ [j]) = 8%nat /\ length (memreqs tr2) = 2%nat) ->
  proto_run px (s0_a px) ((a ++ [i]) ++ b ++ [j]) /\ i_req_en i = true /\
  let tr1 := trace_of px (s0_a px) (a ++ [i]) in let s1 := fst (run px (s0_a px) (a ++ [i])) in
  let tr2 := trace_of px s1 (b ++ [j]) in
  Forall (fun i => i_resp_rdy i && i_mreq_rdy i = true) (b ++ [j]) /\ answers_within 0 tr1 tr2 /\
  (length (responses (tr1 ++ trace_of px s1 b)) < length (accepted tr1))%nat /\
  (length (accepted tr1) <= length (responses (tr1 ++ tr2)))%nat /\
  length (b ++ [j]) = 8%nat /\ length (memreqs tr2) = 2%nat.
Proof.
  intros a i b j P (H1 & H2 & H3 & H4 & H5 & H6 & H7). split; auto. split; auto. cbv zeta.
  destruct (all_productive _ _ H3) as [X Y]. split.
  { revert X. generalize (fst (run px (s0_a px) (a ++ [i]))) as s. generalize (b ++ [j]) as l. clear.
    induction l as [|x l IH]; intros s X; [constructor|]. rewrite SysProofs.trace_cons in X. inversion X; subst. constructor; eauto. }
  split; auto. split; [apply Nat.ltb_lt; auto|]. split; [apply Nat.leb_le; auto|]. auto.
Qed.
Example C54_example : proto_run px (s0_a px) ((a_t ++ [i_t]) ++ b_t ++ [j_t]) /\ i_req_en i_t = true /\
  let tr1 := trace_of px (s0_a px) (a_t ++ [i_t]) in let s1 := fst (run px (s0_a px) (a_t ++ [i_t])) in
  let tr2 := trace_of px s1 (b_t ++ [j_t]) in
  Forall (fun i => i_resp_rdy i && i_mreq_rdy i = true) (b_t ++ [j_t]) /\ answers_within 0 tr1 tr2 /\
  (length (responses (tr1 ++ trace_of px s1 b_t)) < length (accepted tr1))%nat /\
  (length (accepted tr1) <= length (responses (tr1 ++ tr2)))%nat /\
  length (b_t ++ [j_t]) = 8%nat /\ length (memreqs tr2) = 2%nat.
Proof.
  refine (example_t a_t i_t b_t j_t _ calc_t). rewrite <- split_t. eapply sys_proto. apply run_a. apply wf_all. reflexivity.
Qed.
