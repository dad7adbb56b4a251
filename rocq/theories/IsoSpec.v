(** C65: timing isolation between caches.  Specification vocabulary only. *)
From Coq Require Import NArith List Bool.
From Verif Require Import Bits Params Msg Rtl Spec System Hide IdleSpec.
Import ListNotations.
Open Scope N_scope.

(** The client does the same in two cycles, up to the data of requests. *)
Record same_client (i i' : inp) : Prop := mkSameClient {
  sc_en : i_req_en i' = i_req_en i;
  sc_req : i_req_en i = true -> hide_creq (i_req i') = hide_creq (i_req i);
  sc_rdy : i_resp_rdy i' = i_resp_rdy i
}.

(** In which cycles a memory request was sent. *)
Definition sends (tr : trace) : list bool := map (fun io => match o_mreq (snd io) with Some _ => true | None => false end) tr.
(** A memory port that serves its own cache without regard to other ports: whether it takes a
    request and whether it answers depends only on when this cache sent requests. *)
Definition own_timing (takes answers : list bool -> bool) (tr : trace) : Prop :=
  forall t1 io t2, tr = t1 ++ io :: t2 -> i_mreq_rdy (fst io) = takes (sends t1) /\ i_mresp_en (fst io) = answers (sends t1).
(** For example: it always takes a request and answers after [L] cycles. *)
Definition after (L : nat) (past : list bool) : bool := nth_default false (rev past) (L - 1).

(** What is on the outputs, data and the opaque of memory WRITEs apart. *)
Definition public (o : outp) : outp := hide_out (drop_out o).
