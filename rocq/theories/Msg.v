(** Memory messages: mem_ifcs/MemMsg.py. *)
From Coq Require Import NArith List Bool Lia.
From Verif Require Import Bits Params.
Open Scope N_scope.

(** MemMsgType (MemMsg.py 18-36); constants.py 24-38. *)
Definition T_READ : N := 0.
Definition T_WRITE : N := 1.
Definition T_INIT : N := 2.
Definition T_AMO_ADD : N := 3.
Definition T_AMO_AND : N := 4.
Definition T_AMO_OR : N := 5.
Definition T_AMO_SWAP : N := 6.
Definition T_AMO_MIN : N := 7.
Definition T_AMO_MINU : N := 8.
Definition T_AMO_MAX : N := 9.
Definition T_AMO_MAXU : N := 10.
Definition T_AMO_XOR : N := 11.
Definition T_LR : N := 12.
Definition T_SC : N := 13.
Definition T_INV : N := 14.
Definition T_FLUSH : N := 15.

(** The range the control unit treats as atomic: [AMO_ADD <= t < INV]
    (BlockingCacheCtrlRTL.py 266-267, 278-279). *)
Definition is_amo (t : N) : bool := (T_AMO_ADD <=? t) && (t <? T_INV).

(** Cache request (CacheReqType, mk_mem_req_msg without wr_mask, MemMsg.py 125-131).
    Also used for the pipeline message (cacheStructs.py 137-143), whose data
    field has the width of a cache line. *)
Record creq := mkCReq { cq_type : N; cq_opq : N; cq_addr : N; cq_len : N; cq_data : N }.

(** Cache response (mk_mem_resp_msg without wr_mask, MemMsg.py 144-). *)
Record cresp := mkCResp { cr_type : N; cr_opq : N; cr_test : N; cr_len : N; cr_data : N }.

(** Memory request with word write mask (MemMsg.py 113-120). *)
Record mreq := mkMReq { mq_type : N; mq_opq : N; mq_addr : N; mq_len : N; mq_mask : N; mq_data : N }.

(** Memory response; the [test] and [wr_mask] fields are never read by the cache
    (BlockingCacheDpathRTL.py 99, 146, 218) and are left out. *)
Record mresp := mkMResp { mr_type : N; mr_opq : N; mr_len : N; mr_data : N }.

(** MSHR entry (cacheStructs.py 163-172); [ms_req] groups type_, opaque, addr,
    len, data. *)
Record mshr := mkMshr { ms_req : creq; ms_repl : N; ms_amo_hit : bool; ms_dirty : N }.

Definition creq0 : creq := mkCReq 0 0 0 0 0.
Definition mresp0 : mresp := mkMResp 0 0 0 0.
Definition mshr0 : mshr := mkMshr creq0 0 false 0.

Section Fields.
Variable p : params.
(** StructAddr (cacheStructs.py 178-186): tag | index | offset, tag on top. *)
Definition a_off (a : N) : N := slice a 0 (offw p).
Definition a_idx (a : N) : N := slice a (offw p) (offw p + idxw p).
Definition a_tag (a : N) : N := slice a (offw p + idxw p) (offw p + idxw p + tagw p).
Definition mk_addr (t i o : N) : N := cat (cat t (idxw p) i) (offw p) o.

(** StructTagArray (cacheStructs.py 188-194): val | dty | tag, val on top. *)
Definition te_tag (e : N) : N := slice e 0 (tagw p).
Definition te_dty (e : N) : N := slice e (tagw p) (tagw p + dtyw p).
Definition te_val (e : N) : bool := N.testbit e (tagw p + dtyw p).
Definition mk_te (v : bool) (d t : N) : N := cat (cat (b2n v) (dtyw p) d) (tagw p) t.
End Fields.
