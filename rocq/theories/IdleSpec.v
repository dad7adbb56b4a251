(** Vocabulary for C55: what an idle port shows.  Specification only. *)
From Coq Require Import NArith List Bool.
From Verif Require Import Bits Params Msg Rtl Spec System.
Import ListNotations.
Open Scope N_scope.

(** Two cycles' inputs that differ at most in messages nobody sends: the request
    port when it is not enabled, the memory response port when it is not enabled;
    and in the opaque and length fields of memory responses. *)
Record idle_eq (i i' : inp) : Prop := mkIdleEq {
  ie_en : i_req_en i' = i_req_en i;
  ie_req : i_req_en i = true -> i_req i' = i_req i;
  ie_rdy : i_resp_rdy i' = i_resp_rdy i;
  ie_mrdy : i_mreq_rdy i' = i_mreq_rdy i;
  ie_men : i_mresp_en i' = i_mresp_en i;
  ie_mresp : i_mresp_en i = true ->
    mr_type (i_mresp i') = mr_type (i_mresp i) /\ mr_data (i_mresp i') = mr_data (i_mresp i)
}.

(** A memory request without the opaque field if it is a WRITE. *)
Definition drop_wopq (q : mreq) : mreq :=
  mkMReq (mq_type q) (if mq_type q =? T_WRITE then 0 else mq_opq q) (mq_addr q) (mq_len q) (mq_mask q) (mq_data q).
Definition drop_out (o : outp) : outp := mkOut (o_req_rdy o) (o_resp o) (option_map drop_wopq (o_mreq o)).
