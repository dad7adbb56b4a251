(** C66: power-up contents.  Specification vocabulary only. *)
From Coq Require Import NArith List Bool.
From Verif Require Import Bits Params Msg Rtl Mem Spec System Traffic Hide.
Import ListNotations.
Open Scope N_scope.

Section S.
Variable p : params.

(** The tag arrays hold what the hardware can hold: [tagarrw p] bits in each of [nblocks p] rows of
    [p_assoc p] ways, and nothing (0) outside.  Otherwise contents are arbitrary. *)
Definition physical (s : st) : Prop :=
  forall w k, tram s w k < 2 ^ tagarrw p /\ (p_assoc p <= w \/ nblocks p <= k -> tram s w k = 0).

(** Memory requests that mean the same to memory: equal but for data memory does not look at. *)
Record same_mreq (q q' : mreq) : Prop := mkSameMreq {
  sm_head : hide_mreq q' = hide_mreq q;
  sm_write : mq_type q = T_WRITE -> forall o, o < p_clw p / 8 -> N.testbit (mq_mask q) (o / 4) = true ->
             slice (mq_data q') (8 * o) (8 * o + 8) = slice (mq_data q) (8 * o) (8 * o + 8);
  sm_amo : is_amo (mq_type q) = true -> mq_data q' = mq_data q
}.
Definition same_omreq (q q' : option mreq) : Prop :=
  match q, q' with Some q, Some q' => same_mreq q q' | None, None => True | _, _ => False end.
(** Outputs of a cycle: ready and response the same in every bit, memory request the same to memory. *)
Record same_out (o o' : outp) : Prop := mkSameOut {
  so_rdy : o_req_rdy o' = o_req_rdy o;
  so_resp : o_resp o' = o_resp o;
  so_mreq : same_omreq (o_mreq o) (o_mreq o')
}.
End S.
