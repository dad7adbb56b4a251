(** The cache in its environment: a client on the request/response ports and a
    memory on the memory ports.  Specification vocabulary only. *)
From Coq Require Import NArith List Bool Lia.
From Verif Require Import Bits Params Msg Rtl Mem Spec.
Import ListNotations.
Open Scope N_scope.

(** What is visible on the ports: one (inputs, outputs) pair per cycle. *)
Definition trace := list (inp * outp).
Definition trace_of (p : params) (s : st) (is : list inp) : trace := combine is (snd (run p s is)).

Definition opt_list {A} (o : option A) : list A := match o with Some x => [x] | None => [] end.

(** Requests accepted, responses sent, memory requests sent, memory responses
    delivered, in order. *)
Definition accepted (tr : trace) : list creq :=
  flat_map (fun io => if i_req_en (fst io) then [i_req (fst io)] else []) tr.
Definition responses (tr : trace) : list cresp := flat_map (fun io => opt_list (o_resp (snd io))) tr.
Definition memreqs (tr : trace) : list mreq := flat_map (fun io => opt_list (o_mreq (snd io))) tr.
Definition memresps (tr : trace) : list mresp :=
  flat_map (fun io => if i_mresp_en (fst io) then [i_mresp (fst io)] else []) tr.

(** Memory requests sent and not yet answered. *)
Definition outstanding (tr : trace) : list mreq := skipn (length (memresps tr)) (memreqs tr).

(** The client raises [en] only when the cache says [rdy] (the en/rdy protocol
    of pymtl3's RecvIfcRTL), and only sends supported requests. *)
Definition client_ok (p : params) (tr : trace) : Prop :=
  Forall (fun io => i_req_en (fst io) = true ->
                    o_req_rdy (snd io) = true /\ wf_req p (i_req (fst io))) tr.

(** A memory (MemoryCL.py): it executes the requests in the order received, each
    at any time after its arrival, and answers in order, any time after
    execution.  [mem_trace p m rq rs tr m' rq' rs']: starting with contents [m],
    requests [rq] not yet executed and answers [rs] not yet delivered, the
    memory can show the behaviour [tr] on the ports and end in [m'], [rq'], [rs']. *)
Inductive mem_trace (p : params) : mem -> list mreq -> list mresp -> trace ->
                                   mem -> list mreq -> list mresp -> Prop :=
| mt_nil : forall m rq rs, mem_trace p m rq rs [] m rq rs
| mt_exec : forall m q rq rs tr m' rq' rs',
    mem_trace p (fst (mem_exec p m q)) rq (rs ++ [snd (mem_exec p m q)]) tr m' rq' rs' ->
    mem_trace p m (q :: rq) rs tr m' rq' rs'
| mt_quiet : forall m rq rs i o tr m' rq' rs', i_mresp_en i = false ->
    mem_trace p m (rq ++ opt_list (o_mreq o)) rs tr m' rq' rs' ->
    mem_trace p m rq rs ((i, o) :: tr) m' rq' rs'
| mt_answer : forall m rq x rs i o tr m' rq' rs', i_mresp_en i = true -> i_mresp i = x ->
    mem_trace p m (rq ++ opt_list (o_mreq o)) rs tr m' rq' rs' ->
    mem_trace p m rq (x :: rs) ((i, o) :: tr) m' rq' rs'.

(** A run of the cache out of reset with a client and a memory obeying the
    above; [m0] is the initial memory, [m], [rq], [rs] describe memory at the end. *)
Definition sys_run (p : params) (s0 : st) (is : list inp) (m0 m : mem) (rq : list mreq) (rs : list mresp) : Prop :=
  reset_state p s0 /\ client_ok p (trace_of p s0 is) /\ mem_trace p m0 [] [] (trace_of p s0 is) m rq rs.

(** *** Progress *)
(** A cycle in which both sides are ready and memory is not behind: nothing is
    outstanding, or an answer is delivered.  [tr] is the past. *)
Definition productive (tr : trace) (i : inp) : bool :=
  i_resp_rdy i && i_mreq_rdy i && (match outstanding tr with [] => true | _ => i_mresp_en i end).
Fixpoint productive_cycles (tr0 tr : trace) : nat :=
  match tr with
  | [] => 0
  | io :: tr => ((if productive tr0 (fst io) then 1 else 0) + productive_cycles (tr0 ++ [io]) tr)%nat
  end.

(** Memory latency: in every [L+1] consecutive cycles there is one in which
    nothing is outstanding or an answer arrives. *)
Definition answers_within (L : nat) (tr0 tr : trace) : Prop :=
  forall t1 t2 t3, tr = t1 ++ t2 ++ t3 -> length t2 = S L ->
    exists a io b, t2 = a ++ io :: b /\ (outstanding (tr0 ++ t1 ++ a) = [] \/ i_mresp_en (fst io) = true).

