(** Vocabulary for C48-C50: messages without data, and runs over a memory of
    whose data nothing is known.  Specification only. *)
From Coq Require Import NArith List Bool.
From Verif Require Import Bits Params Msg Rtl Mem Spec System MultiSys.
Import ListNotations.
Open Scope N_scope.

(** Messages without their data.  Of a memory answer only the type is kept. *)
Definition hide_creq (q : creq) : creq := mkCReq (cq_type q) (cq_opq q) (cq_addr q) (cq_len q) 0.
Definition hide_cresp (y : cresp) : cresp := mkCResp (cr_type y) (cr_opq y) (cr_test y) (cr_len y) 0.
Definition hide_mreq (q : mreq) : mreq := mkMReq (mq_type q) (mq_opq q) (mq_addr q) (mq_len q) (mq_mask q) 0.
Definition hide_mresp (x : mresp) : mresp := mkMResp (mr_type x) 0 0 0.
Definition hide_in (i : inp) : inp :=
  mkInp (i_req_en i) (hide_creq (i_req i)) (i_resp_rdy i) (i_mreq_rdy i) (i_mresp_en i) (hide_mresp (i_mresp i)).
Definition hide_out (o : outp) : outp :=
  mkOut (o_req_rdy o) (option_map hide_cresp (o_resp o)) (option_map hide_mreq (o_mreq o)).

(** Every memory answer has the type of the oldest unanswered request; there is
    none without a request. *)
Definition answers_typed (tr : trace) : Prop :=
  forall t1 io t2, tr = t1 ++ io :: t2 -> i_mresp_en (fst io) = true ->
    exists q l, outstanding t1 = q :: l /\ mr_type (i_mresp (fst io)) = mq_type q.

(** A run out of reset with a well-behaved client and such a memory. *)
Definition proto_run (p : params) (s0 : st) (is : list inp) : Prop :=
  reset_state p s0 /\ client_ok p (trace_of p s0 is) /\ answers_typed (trace_of p s0 is).

(** [n] caches out of reset with well-behaved clients that may share memory in any
    way whatsoever (unlike [multi_run], there is no ownership of words). *)
Definition clients (p : params) (z : nat -> N * N) (n : nat) (s0 : nat -> st) (ts : list cyc) : Prop := forall i, (i < n)%nat ->
  reset_state (sized p z i) (s0 i) /\ proj i ts = trace_of (sized p z i) (s0 i) (map fst (proj i ts)) /\ client_ok p (proj i ts).

