(** Two cache levels: the memory port of one cache connected to the client port of
    another (BlockingCacheRTL.py 48-50: "cache <-> main memory or lower-level cache",
    blocking_cache/README.md 38-40, 190).  Specification and model of the wiring only;
    both caches are [Rtl]. *)
From Coq Require Import NArith List Bool.
From Verif Require Import Bits Params Msg Rtl Mem Spec System.
Import ListNotations.
Open Scope N_scope.

Definition is_some {A} (o : option A) : bool := match o with Some _ => true | None => false end.

(** A memory request of the first level as a client request of the second: the
    messages have the same fields (mem_ifcs/MemMsg.py 83-136) except for the write mask:
    a client request type must not have one (BlockingCacheDpathRTL.py 53-56 builds a
    client request from type, opaque, addr, len, data by position; translate.py 83-84), so the mask is dropped. *)
Definition down_req (q : mreq) : creq := mkCReq (mq_type q) (mq_opq q) (mq_addr q) (mq_len q) (mq_data q).
(** A response of the second level as a memory answer to the first; the hit flag
    (test) is not used by the first level. *)
Definition up_resp (y : cresp) : mresp := mkMResp (cr_type y) (cr_opq y) (cr_len y) (cr_data y).

(** One cycle of the wiring.  [i] is what the outside shows: the client port is the
    first level's, the memory port the second level's.  The second level's response
    port is always ready, because a cache always takes memory answers
    (BlockingCacheCtrlRTL.py 117-119: memresp_rdy is constantly 1).  The result is what
    each level sees on its input ports.  The outputs of the second level are taken with
    its request port idle; C56 says that they do not depend on it. *)
Definition wire (p1 p2 : params) (s1 s2 : st) (i : inp) : inp * inp :=
  let o2 := output p2 s2 (mkInp false creq0 true (i_mreq_rdy i) (i_mresp_en i) (i_mresp i)) in
  let i1 := mkInp (i_req_en i) (i_req i) (i_resp_rdy i) (o_req_rdy o2) (is_some (o_resp o2))
                  (match o_resp o2 with Some y => up_resp y | None => mresp0 end) in
  let o1 := output p1 s1 i1 in
  (i1, mkInp (is_some (o_mreq o1)) (match o_mreq o1 with Some q => down_req q | None => creq0 end)
             true (i_mreq_rdy i) (i_mresp_en i) (i_mresp i)).

(** Inputs of the two levels in every cycle. *)
Fixpoint stack (p1 p2 : params) (s1 s2 : st) (is : list inp) : list (inp * inp) :=
  match is with
  | [] => []
  | i :: is => let w := wire p1 p2 s1 s2 i in w :: stack p1 p2 (next p1 s1 (fst w)) (next p2 s2 (snd w)) is
  end.
Definition upper (p1 p2 : params) (s1 s2 : st) (is : list inp) : trace :=
  trace_of p1 s1 (map fst (stack p1 p2 s1 s2 is)).
Definition lower (p1 p2 : params) (s1 s2 : st) (is : list inp) : trace :=
  trace_of p2 s2 (map snd (stack p1 p2 s1 s2 is)).

(** The levels fit: the second level's data width is the first level's line, and
    addresses have the same width. *)
Definition fits (p1 p2 : params) : Prop := p_dbw p2 = p_clw p1 /\ p_abw p2 = p_abw p1.

(** A run of the two levels out of reset: a well-behaved client above, a memory
    below. *)
Definition stack_run (p1 p2 : params) (s1 s2 : st) (is : list inp) (m0 m : mem) (rq : list mreq) (rs : list mresp) : Prop :=
  reset_state p1 s1 /\ reset_state p2 s2 /\ client_ok p1 (upper p1 p2 s1 s2 is) /\
  mem_trace p2 m0 [] [] (lower p1 p2 s1 s2 is) m rq rs.

(** The client sends no WRITE (an instruction cache, or a client that only reads,
    invalidates, flushes and uses AMOs). *)
Definition no_write (tr : trace) : Prop := Forall (fun r => cq_type r <> T_WRITE) (accepted tr).

(** Liveness.  Cycles in which the client takes responses and the second level is
    served: its memory request port is ready and its memory is not behind
    ([productive], System.v).  [t0] is the second level's past, [up] and [lo] are the two
    levels' traces. *)
Fixpoint served (t0 up lo : trace) : nat :=
  match up, lo with
  | u :: up, l :: lo => ((if i_resp_rdy (fst u) && productive t0 (fst l) then 1 else 0) + served (t0 ++ [l]) up lo)%nat
  | _, _ => 0%nat
  end.
(** The two levels' states after some cycles. *)
Definition up_state (p1 p2 : params) (s1 s2 : st) (is : list inp) : st := fst (run p1 s1 (map fst (stack p1 p2 s1 s2 is))).
Definition lo_state (p1 p2 : params) (s1 s2 : st) (is : list inp) : st := fst (run p2 s2 (map snd (stack p1 p2 s1 s2 is))).
