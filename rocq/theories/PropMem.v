(** Property C28: the behavioural memory. *)
From Coq Require Import PeanoNat NArith ZArith List Bool Lia.
From Verif Require Import MultiSys MemClMulti Bits Params Msg Rtl Mem System MemCl MemFacts Harness.
Import ListNotations.
Open Scope N_scope.

(** For any number of ports, any arrivals, deliveries and ready signals there is
    one sequence of all requests executed so far, which only grows, such that
    the memory is the result of executing that sequence, each port's requests are
    executed in order of arrival without loss or duplication, and each port's
    answers are delivered in order and are those of the sequence. *)
Theorem C28_sequential : forall p n m0,
  exists ex : list mev -> list (nat * mreq),
  (forall es es', exists more, ex (es ++ es') = ex es ++ more) /\
  forall es, let s := mcl_run p n (mcl0 m0) es in let qs := ex es in
    let answers := combine (map fst qs) (snd (mem_run p m0 (map snd qs))) in
    mc_mem s = fst (mem_run p m0 (map snd qs)) /\
    forall i, arrivals i es = map snd (filter (fun x => Nat.eqb (fst x) i) qs) ++ pq (mc_ports s i) /\
              map snd (filter (fun x => Nat.eqb (fst x) i) answers) = deliveries p n i (mcl0 m0) es ++ pr (mc_ports s i).
Proof.
  intros p n m0. exists (mlog p n (mcl0 m0)). split.
  - intros es es'. rewrite mlog_app. eexists; reflexivity.
  - intros es. destruct (mcl_ok p n es (mcl0 m0)) as (A & B & C). cbv zeta. split; [exact A|].
    intros i. split; [exact (B i) | exact (C i)].
Qed.
Print Assumptions C28_sequential.

(** What executing one request means. *)
Theorem C28_read : forall p m q, mq_type q = T_READ ->
  let L := if mq_len q =? 0 then p_clw p / 8 else mq_len q in
  fst (mem_exec p m q) = m /\ mr_data (snd (mem_exec p m q)) < 256 ^ L /\
  forall k, k < L -> byte (mr_data (snd (mem_exec p m q))) k = m (mq_addr q + k) mod 256.
Proof. exact exec_read. Qed.
Print Assumptions C28_read.
Theorem C28_write : forall p m q, mq_type q = T_WRITE ->
  let m' := fst (mem_exec p m q) in
  (forall j k, j < p_clw p / 32 -> k < 4 ->
     m' (mq_addr q + 4 * j + k) = if N.testbit (mq_mask q) j then byte (mq_data q) (4 * j + k) else m (mq_addr q + 4 * j + k)) /\
  (forall a, a < mq_addr q \/ mq_addr q + 4 * (p_clw p / 32) <= a -> m' a = m a).
Proof. exact exec_write. Qed.
Print Assumptions C28_write.
Theorem C28_amo : forall p m q, T_AMO_ADD <= mq_type q ->
  let m' := fst (mem_exec p m q) in
  let old := mr_data (snd (mem_exec p m q)) in
  old < 2 ^ 32 /\ (forall k, k < 4 -> byte old k = m (mq_addr q + k) mod 256) /\
  (exists new, new < 2 ^ 32 /\ amo_meaning (mq_type q) old (mq_data q mod 2 ^ 32) new /\
     forall k, k < 4 -> m' (mq_addr q + k) = byte new k) /\
  (forall a, a < mq_addr q \/ mq_addr q + 4 <= a -> m' a = m a).
Proof. exact exec_amo_meaning. Qed.
Print Assumptions C28_amo.
(** The function the flat-memory specification (and the reference model) uses for
    AMOs is the one named: addition modulo 2^32, bitwise operations, swap, signed and
    unsigned minimum and maximum. *)
Theorem C28_amo_functions : forall t old arg, old < 2 ^ 32 -> arg < 2 ^ 32 -> amo_meaning t old arg (amo_fun t old arg).
Proof. exact amo_fun_meaning. Qed.
Print Assumptions C28_amo_functions.
Example C28_amo_ex : signed32 0xfffffff0 = (-16)%Z /\ amo_fun T_AMO_MIN 5 0xfffffff0 = 0xfffffff0 /\ amo_fun T_AMO_MINU 5 0xfffffff0 = 5 /\
  amo_fun T_AMO_MAX 5 0xfffffff0 = 5 /\ amo_fun T_AMO_ADD 0x20 0xfffffff0 = 0x10.
Proof. vm_compute. auto. Qed.
Theorem C28_echo : forall p m q, mr_type (snd (mem_exec p m q)) = mq_type q /\ mr_opq (snd (mem_exec p m q)) = mq_opq q.
Proof. exact exec_echo. Qed.
Print Assumptions C28_echo.

(** A one-port MemoryCL is one of the memories that the cache's theorems allow. *)
Theorem C28_serves_cache : forall p m0 tr rdys, serves p (mcl0 m0) tr rdys ->
  let e := mcl_end p (mcl0 m0) tr rdys in
  mem_trace p m0 [] [] tr (mc_mem e) (pq (mc_ports e 0%nat)) (pr (mc_ports e 0%nat)).
Proof. intros p m0 tr rdys H. exact (serves_mem_trace p tr rdys (mcl0 m0) H). Qed.
Print Assumptions C28_serves_cache.

(** A MemoryCL with [n] ports is one of the memories that the theorems about several caches allow. *)
Theorem C28_serves_caches : forall p n m0 ts rdys, serves_n p n (mcl0 m0) ts rdys ->
  let e := mcl_end_n p n (mcl0 m0) ts rdys in
  exists rq rs, mmem p n m0 no_reqs no_resps ts (mc_mem e) rq rs /\
    forall i, (i < n)%nat -> pq (mc_ports e i) = rq i /\ pr (mc_ports e i) = rs i.
Proof. exact (fun p n m0 ts rdys => serves_n_start p n ts rdys m0). Qed.
Print Assumptions C28_serves_caches.

(** Two ports: port 1 writes one word of a line with a mask, port 0 reads the
    line before and after and does an AMO. *)
Definition ex_evs : list mev :=
  [ EArr 0 (mkMReq T_READ 1 0x10 0 0 0); ETick (fun _ => true);
    EArr 1 (mkMReq T_WRITE 2 0x10 0 2 0x00000004000000030000000200000001); EArr 0 (mkMReq T_AMO_ADD 3 0x14 4 0 10);
    ETick (fun i => Nat.eqb i 1); EDel 0; ETick (fun _ => true); EDel 0; EDel 1 ].
Example C28_ex :
  let s := mcl_run px 2 (mcl0 mem_a) ex_evs in
  (map (fun x => (mr_opq x, mr_data x)) (deliveries px 2 0 (mcl0 mem_a) ex_evs) = [(1, 0xdcd5cec7c0b9b2aba49d968f88817a73); (3, 2)]) /\
  rd_bytes (mc_mem s) 0x10 16 = 0xdcd5cec7c0b9b2ab0000000c88817a73.
Proof. vm_compute. auto. Qed.
(** ... and a cycle-by-cycle environment served by the memory. *)
Example C28_serves_ex : exists rdys, serves px (mcl0 mem_a)
   [ (mkInp false creq0 true true false mresp0, mkOut true None (Some (mkMReq T_READ 1 0x10 0 0 0)));
     (mkInp false creq0 true true false mresp0, mkOut true None None);
     (mkInp false creq0 true true true (mkMResp T_READ 1 0 0xdcd5cec7c0b9b2aba49d968f88817a73), mkOut true None None) ] rdys.
Proof.
  exists [(fun _ => false); (fun _ => true); (fun _ => true)]. cbn [serves].
  split; [intros H; discriminate|]. split; [intros H; discriminate|]. split; [|exact I].
  intros _. exists []. vm_compute. reflexivity.
Qed.
(** Two caches in the same three cycles: port 1 writes, then port 0 reads what it wrote. *)
Definition quiet : inp * outp := (mkInp false creq0 true true false mresp0, mkOut true None None).
Definition ask (q : mreq) : inp * outp := (mkInp false creq0 true true false mresp0, mkOut true None (Some q)).
Definition got (x : mresp) : inp * outp := (mkInp false creq0 true true true x, mkOut true None None).
Definition pair_cyc (a b : inp * outp) : cyc := fun i => match i with O => a | _ => b end.
Example C28_serves_n_ex : exists rdys, serves_n px 2 (mcl0 mem_a)
   [ pair_cyc quiet (ask (mkMReq T_WRITE 2 0x10 0 2 0x00000004000000030000000200000001));
     pair_cyc (ask (mkMReq T_READ 1 0x10 0 0 0)) quiet;
     pair_cyc (got (mkMResp T_READ 1 0 0xdcd5cec7c0b9b2ab0000000288817a73)) (got (mkMResp T_WRITE 2 0 0)) ] rdys.
Proof.
  exists [(fun _ => true); (fun _ => true); (fun _ => false)]. cbn [serves_n].
  split; [intros [|[|i]] L H; [discriminate H | discriminate H | lia]|].
  split; [intros [|[|i]] L H; [discriminate H | discriminate H | lia]|]. split; [|exact I].
  intros [|[|i]] L H; [| | lia]; exists []; vm_compute; reflexivity.
Qed.
