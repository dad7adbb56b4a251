(** C67: fields a request does not use.  Specification vocabulary only. *)
From Coq Require Import NArith List Bool.
From Verif Require Import Bits Params Msg Rtl Spec System.
Import ListNotations.
Open Scope N_scope.

Section S.
Variable p : params.

(** INV and FLUSH are about the whole cache: they use no address, length or data. *)
Definition whole (t : N) : bool := (t =? T_INV) || (t =? T_FLUSH).
(** An AMO is on 4 bytes, whatever its length field says, if the data port has 32 bits. *)
Definition no_len (t : N) : bool := whole t || (is_amo t && (p_dbw p =? 32)).

(** Two requests alike in everything a request of that type uses: a READ no data, a WRITE only
    the data bits it writes, INV and FLUSH nothing; and no request uses its opaque field. *)
Record same_use (r r' : creq) : Prop := mkSameUse {
  su_type : cq_type r' = cq_type r;
  su_addr : whole (cq_type r) = false -> cq_addr r' = cq_addr r;
  su_len : no_len (cq_type r) = false -> cq_len r' = cq_len r;
  su_write : cq_type r = T_WRITE ->
    trunc (N.min (8 * req_bytes p r) (p_dbw p)) (cq_data r') = trunc (N.min (8 * req_bytes p r) (p_dbw p)) (cq_data r);
  su_amo : is_amo (cq_type r) = true -> cq_data r' = cq_data r
}.

(** Inputs of a cycle: requests alike in what they use, memory answers alike in type and data,
    anything on ports that are not enabled. *)
Record use_in (i i' : inp) : Prop := mkUseIn {
  ui_en : i_req_en i' = i_req_en i;
  ui_req : i_req_en i = true -> same_use (i_req i) (i_req i');
  ui_rdy : i_resp_rdy i' = i_resp_rdy i;
  ui_mrdy : i_mreq_rdy i' = i_mreq_rdy i;
  ui_men : i_mresp_en i' = i_mresp_en i;
  ui_mresp : i_mresp_en i = true ->
    mr_type (i_mresp i') = mr_type (i_mresp i) /\ mr_data (i_mresp i') = mr_data (i_mresp i)
}.

(** A response without the fields that are copied from the request and otherwise unused;
    a memory request without opaque, and without data if it is a READ. *)
Definition bare_resp (y : cresp) : cresp :=
  mkCResp (cr_type y) 0 (cr_test y) (if no_len (cr_type y) then 0 else cr_len y) (cr_data y).
Definition bare_mreq (q : mreq) : mreq :=
  mkMReq (mq_type q) 0 (mq_addr q) (mq_len q) (mq_mask q) (if mq_type q =? T_READ then 0 else mq_data q).
Definition bare_out (o : outp) : outp :=
  mkOut (o_req_rdy o) (option_map bare_resp (o_resp o)) (option_map bare_mreq (o_mreq o)).
End S.
