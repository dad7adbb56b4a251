(** The simulation relation between [Rtl] and the transaction-level machine
    [Tl]: one case per phase of a request. *)
From Coq Require Import NArith List Bool Lia.
From Verif Require Import Bits Params Msg Units Rtl Tl ParamsProofs RtlLemmas.
Import ListNotations.
Open Scope N_scope.

(** ** The environment *)
(** Memory requests sent and not yet answered. *)
Definition a_outst (a : ast) : list mreq :=
  match a_cur a with Some u => u_out u | None => [] end.

(** What an environment obeying the interfaces may do in a cycle: a request is
    only enabled when the cache is ready, and is of a supported type; memory
    answers requests sent in earlier cycles, oldest first. *)
Record legal (p : params) (s : st) (out : list mreq) (i : inp) : Prop := mkLegal {
  lg_req : i_req_en i = true -> req_rdy p s i = true /\ wf_type (cq_type (i_req i));
  lg_resp : i_mresp_en i = true -> exists m l, out = m :: l /\ mr_type (i_mresp i) = mq_type m
}.

(** One cycle of the transaction-level machine: optionally receive, optionally
    send or emit, optionally complete the current request, optionally accept. *)
Definition o_recv (a : ast) (i : inp) (a' : ast) : Prop :=
  if i_mresp_en i then a_recv a (i_mresp i) a' else a' = a.
Definition o_send (p : params) (a : ast) (o : outp) (a' : ast) : Prop :=
  match o_mreq o, o_resp o with
  | Some m, None => a_send a m a'
  | None, Some y => a_emit a y a'
  | None, None => a' = a
  | Some _, Some _ => False
  end.
Definition o_done (p : params) (a : ast) (a' : ast) : Prop := a_done p a a' \/ a' = a.
Definition o_acc (p : params) (a : ast) (i : inp) (a' : ast) : Prop :=
  if i_req_en i then a_acc p a (i_req i) a' else a' = a.
Definition acyc (p : params) (a : ast) (i : inp) (o : outp) (a' : ast) : Prop :=
  exists a1 a2 a3, o_recv a i a1 /\ o_send p a1 o a2 /\ o_done p a2 a3 /\ o_acc p a3 i a'.

Definition ol {A} (o : option A) : list A := match o with Some x => [x] | None => [] end.

Section Inv.
Variable p : params.

(** response still in stage M1 *)
Definition resp1 (s : st) : option cresp :=
  if m2_active (t1 s)
  then m2_resp p (t1 s) (is_evict1 p s) (hit1 p s) (q1_2 p s) (ddnext p s) else None.

Definition idle_t (t : trans) : bool :=
  match t with
  | TR_INVALID | TR_CLEAN_HIT | TR_CACHE_INIT | TR_REPLAY_READ | TR_REPLAY_WRITE
  | TR_REPLAY_AMO | TR_REPLAY_INV | TR_REPLAY_FLUSH => true
  | _ => false
  end.

(** the request as it travels in stage M1 *)
Definition pipe_req (r : creq) : creq :=
  mkCReq (cq_type r) (cq_opq r) (cq_addr r) (cq_len r) (tl_data p r).
Definition req_trans (t : N) : trans :=
  if t =? T_READ then TR_READ_REQ else if t =? T_WRITE then TR_WRITE_REQ
  else if is_amo t then TR_AMO_REQ else if t =? T_INV then TR_INV_START else TR_FLUSH_START.
Definition is_rw (t : N) : bool := (t =? T_READ) || (t =? T_WRITE).
Definition mshr_req (r : creq) : creq :=
  mkCReq (cq_type r) (cq_opq r) (cq_addr r) (cq_len r) (slice (tl_data p r) 0 (p_dbw p)).
Definition msr_of (c : cst) (r : creq) : mshr :=
  mkMshr (mshr_req r) (tl_way p c r) (tl_hit p c r || tl_inval p c r) (tl_dirty p c r).

(** lines [k] and above invalidated / cleaned *)
Definition lfrom (f : N -> N) (k : N) (T : N -> N -> N) : N -> N -> N :=
  fun w i => if inrange p w i && (k <=? lnum p w i) then f (T w i) else T w i.
Definition last_line : N := total_lines p - 1.
Definition prev_line (k : N) : N := if k =? 0 then last_line else k - 1.

Record ph_idle (s : st) (a : ast) : Prop := mkIdle {
  id_fsm : fsm s = F_READY; id_msn : msn s = 0; id_mrv : mrv s = false;
  id_ctr : ctr s = last_line; id_t1 : idle_t (t1 s) = true;
  id_ci : t1 s = TR_CACHE_INIT -> m2_active (t2 s) = false; id_mem2 : mem2 p s = None;
  id_cur : a_cur a = None; id_pend : a_pend a = ol (resp2 p s) ++ ol (resp1 s);
  id_t : forall w k, tram s w k = ct (a_c a) w k;
  id_d : forall k, dnext p s k = cd (a_c a) k;
  id_r : forall k, rep s k = cr (a_c a) k
}.

Record ph_req (s : st) (a : ast) (r : creq) : Prop := mkReq {
  rq_fsm : fsm s = F_READY; rq_msn : msn s = 0; rq_mrv : mrv s = false;
  rq_ctr : ctr s = last_line; rq_ty : is_rw (cq_type r) || is_amo (cq_type r) = true;
  rq_t1 : t1 s = req_trans (cq_type r); rq_mem2 : mem2 p s = None; rq_ev2 : ev2 s = false;
  rq_cur : a_cur a = Some (mkCur r (tl_reqs p (a_c a) r) [] 0);
  rq_pend : a_pend a = ol (resp2 p s);
  rq_tagq : forall w, tagq s w = tl_ent p (a_c a) r w;
  rq_hitq : hitq p s = hsr_in p s;
  rq_q1 : q1 s = pipe_req r;
  rq_t : forall w k, tnext p s w k =
     (if is_rw (cq_type r) && tl_hit p (a_c a) r then tl_wtag p (a_c a) r (ct (a_c a)) else ct (a_c a)) w k;
  rq_d : forall k, dnext p s k =
     (if is_rw (cq_type r) && tl_hit p (a_c a) r
      then tl_wdat p r (cd (a_c a)) (tl_hw p (a_c a) r) (tl_data p r) else cd (a_c a)) k;
  rq_r : forall k, rep s k = cr (a_c a) k
}.

Record ph_evict (s : st) (a : ast) (r : creq) : Prop := mkEvict {
  ev_fsm : fsm s = F_READY; ev_msn : msn s = 0; ev_mrv : mrv s = false;
  ev_ctr : ctr s = last_line; ev_ty : is_rw (cq_type r) || is_amo (cq_type r) = true;
  ev_t1 : t1 s = req_trans (cq_type r); ev_t2 : t2 s = t1 s; ev_ev2 : ev2 s = true;
  ev_mem2 : mem2 p s = Some (evict_req p (a_c a) r (tl_way p (a_c a) r));
  ev_evict : tl_evict p (a_c a) r = true;
  ev_cur : a_cur a = Some (mkCur r [evict_req p (a_c a) r (tl_way p (a_c a) r); main_req p (a_c a) r] [] 0);
  ev_pend : a_pend a = [];
  ev_hitq : hitq p s = (tl_hit p (a_c a) r || tl_inval p (a_c a) r, tl_hw p (a_c a) r);
  ev_q1 : q1 s = pipe_req r;
  ev_t : forall w k, tram s w k = ct (a_c a) w k;
  ev_d : forall k, dram s k = cd (a_c a) k;
  ev_r : forall k, rep s k = (if tl_isamo r then tl_crep p (a_c a) r else cr (a_c a)) k
}.

Definition acks (l : list mreq) : Prop := Forall (fun m => mq_type m = T_WRITE) l.

Record ph_wait (s : st) (a : ast) (r : creq) : Prop := mkWait {
  wt_fsm : fsm s = F_READY; wt_msn : msn s = 1; wt_msr : msr s = msr_of (a_c a) r;
  wt_ctr : ctr s = last_line; wt_ty : is_rw (cq_type r) || is_amo (cq_type r) = true;
  wt_miss : is_rw (cq_type r) = true -> tl_hit p (a_c a) r = false;
  wt_t1 : t1 s = TR_INVALID;
  wt_pend : a_pend a = [];
  wt_t : forall w k, tram s w k = ct (a_c a) w k;
  wt_d : forall k, dram s k = cd (a_c a) k;
  wt_r : forall k, rep s k = tl_crep p (a_c a) r k;
  wt_cur : (mem2 p s = Some (main_req p (a_c a) r) /\ resp2 p s = None /\ mr_val s = false /\
              exists out l, acks out /\ a_cur a = Some (mkCur r [main_req p (a_c a) r] out l))
        \/ (t2 s = TR_INVALID /\ mr_val s = false /\ 
              exists out m l, acks out /\ mq_type m <> T_WRITE /\
                              a_cur a = Some (mkCur r [] (out ++ [m]) l))
        \/ (t2 s = TR_INVALID /\ mr_val s = true /\
              a_cur a = Some (mkCur r [] [] (mr_data (mrm s))))
}.

Record ph_refill (s : st) (a : ast) (r : creq) : Prop := mkRefill {
  rf_fsm : fsm s = F_REPLAY; rf_msn : msn s = 1; rf_mrv : mrv s = false;
  rf_msr : msr s = msr_of (a_c a) r; rf_ctr : ctr s = last_line;
  rf_ty : is_rw (cq_type r) = true; rf_miss : tl_hit p (a_c a) r = false;
  rf_t1 : t1 s = TR_REFILL; rf_t2 : t2 s = TR_INVALID;
  rf_pend : a_pend a = [];
  rf_cur : exists l, a_cur a = Some (mkCur r [] [] l) /\
    forall k, dnext p s k = tl_refill_dat p (a_c a) r (cd (a_c a)) l k;
  rf_t : forall w k, tram s w k = tl_refill_tag p (a_c a) r (ct (a_c a)) w k;
  rf_r : forall k, rep s k = tl_crep p (a_c a) r k
}.

Record ph_inv (s : st) (a : ast) (r : creq) (k : N) : Prop := mkInv {
  iv_fsm : fsm s = F_INV; iv_mrv : mrv s = false; iv_ctr : ctr s = k; iv_k : k < total_lines p;
  iv_ty : cq_type r = T_INV; iv_mem2 : mem2 p s = None;
  iv_t1 : (t1 s = TR_INV_START /\ k = last_line /\ msn s = 0 /\ q1 s = pipe_req r)
       \/ (t1 s = TR_INV_WRITE /\ msn s = 1 /\ ms_req (msr s) = mshr_req r);
  iv_cur : a_cur a = Some (mkCur r [] [] 0);
  iv_pend : a_pend a = ol (resp2 p s);
  iv_t : forall w j, tnext p s w j = lfrom (ent_inv p) k (ct (a_c a)) w j;
  iv_d : forall j, dram s j = cd (a_c a) j;
  iv_r : forall j, rep s j = cr (a_c a) j
}.

Record ph_invl (s : st) (a : ast) (r : creq) : Prop := mkInvl {
  il_fsm : fsm s = F_REPLAY; il_mrv : mrv s = false; il_ctr : ctr s = last_line;
  il_ty : cq_type r = T_INV; il_mem2 : mem2 p s = None;
  il_t1 : t1 s = TR_INV_WRITE; il_msn : msn s = 1; il_msr : ms_req (msr s) = mshr_req r;
  il_cur : a_cur a = Some (mkCur r [] [] 0);
  il_pend : a_pend a = ol (resp2 p s);
  il_t : forall w j, tnext p s w j = lfrom (ent_inv p) 0 (ct (a_c a)) w j;
  il_d : forall j, dram s j = cd (a_c a) j;
  il_r : forall j, rep s j = cr (a_c a) j
}.

Record ph_flstart (s : st) (a : ast) (r : creq) : Prop := mkFlStart {
  fs_fsm : fsm s = F_FLUSH; fs_mrv : mrv s = false; fs_ctr : ctr s = last_line;
  fs_ty : cq_type r = T_FLUSH; fs_mem2 : mem2 p s = None;
  fs_t1 : t1 s = TR_FLUSH_START; fs_msn : msn s = 0; fs_q1 : q1 s = pipe_req r;
  fs_cur : a_cur a = Some (mkCur r (flush_reqs p (a_c a) (cq_opq r) (N.to_nat (total_lines p))) [] 0);
  fs_pend : a_pend a = ol (resp2 p s);
  fs_t : forall w j, tram s w j = ct (a_c a) w j;
  fs_d : forall j, dram s j = cd (a_c a) j;
  fs_r : forall j, rep s j = cr (a_c a) j
}.

(** about line [k] *)
Record ph_fl (s : st) (a : ast) (r : creq) (k : N) (t : trans) : Prop := mkFl {
  fl_ctr : ctr s = prev_line k; fl_k : k < total_lines p;
  fl_ty : cq_type r = T_FLUSH; fl_t1 : t1 s = t;
  fl_msn : msn s = 1; fl_msr : ms_req (msr s) = mshr_req r;
  fl_pend : a_pend a = ol (resp2 p s);
  fl_d : forall j, dram s j = cd (a_c a) j;
  fl_r : forall j, rep s j = cr (a_c a) j
}.

Record ph_flrd (s : st) (a : ast) (r : creq) (k : N) : Prop := mkFlRd {
  fr_c : ph_fl s a r k TR_FLUSH_READ;
  fr_fsm : fsm s = if k =? 0 then F_REPLAY else F_FLUSH;
  fr_mrv : mrv s = false; fr_mem2 : mem2 p s = None; fr_ev2 : ev2 s = false;
  fr_utw : utw1 s = lway p k; fr_fi : fi1 s = lidx p k;
  fr_tagq : tagq s (lway p k) = ct (a_c a) (lway p k) (lidx p k);
  fr_cur : exists l, a_cur a = Some (mkCur r (flush_reqs p (a_c a) (cq_opq r) (S (N.to_nat k))) [] l);
  fr_t : forall w j, tnext p s w j = lfrom (ent_clean p) (k + 1) (ct (a_c a)) w j
}.

Record ph_flwait (s : st) (a : ast) (r : creq) (k : N) : Prop := mkFlWait {
  fw_c : ph_fl s a r k TR_FLUSH_WAIT;
  fw_fsm : fsm s = F_FLUSH_WAIT;
  fw_cur : 
    (exists opq e l, mem2 p s = Some (flush_req p (a_c a) opq k) /\ resp2 p s = None /\ mrv s = false /\
       e = flush_req p (a_c a) (cq_opq r) k /\
       a_cur a = Some (mkCur r (e :: flush_reqs p (a_c a) (cq_opq r) (N.to_nat k)) [] l) /\
       forall w j, tnext p s w j = lfrom (ent_clean p) (k + 1) (ct (a_c a)) w j)
 \/ (exists m l, t2 s = TR_FLUSH_WAIT /\ mrv s = false /\ mq_type m = T_WRITE /\
       a_cur a = Some (mkCur r (flush_reqs p (a_c a) (cq_opq r) (N.to_nat k)) [m] l) /\
       forall w j, tnext p s w j = lfrom (ent_clean p) (k + 1) (ct (a_c a)) w j)
 \/ (exists l, t2 s = TR_FLUSH_WAIT /\ mrv s = true /\ mr_type (mrm s) = T_WRITE /\
       a_cur a = Some (mkCur r (flush_reqs p (a_c a) (cq_opq r) (N.to_nat k)) [] l) /\
       forall w j, tnext p s w j = lfrom (ent_clean p) k (ct (a_c a)) w j)
}.

Record ph_flwr (s : st) (a : ast) (r : creq) (k : N) : Prop := mkFlWr {
  fx_c : ph_fl s a r k TR_FLUSH_WRITE;
  fx_fsm : fsm s = if k =? 0 then F_REPLAY else F_FLUSH;
  fx_mrv : mrv s = false; fx_t2 : t2 s = TR_FLUSH_WAIT;
  fx_cur : exists l, a_cur a = Some (mkCur r (flush_reqs p (a_c a) (cq_opq r) (N.to_nat k)) [] l);
  fx_t : forall w j, tnext p s w j = lfrom (ent_clean p) k (ct (a_c a)) w j
}.

Inductive phase (s : st) (a : ast) : Prop :=
| P_idle : ph_idle s a -> phase s a
| P_req r : ph_req s a r -> phase s a
| P_evict r : ph_evict s a r -> phase s a
| P_wait r : ph_wait s a r -> phase s a
| P_refill r : ph_refill s a r -> phase s a
| P_inv r k : ph_inv s a r k -> phase s a
| P_invl r : ph_invl s a r -> phase s a
| P_flstart r : ph_flstart s a r -> phase s a
| P_flrd r k : ph_flrd s a r k -> phase s a
| P_flwait r k : ph_flwait s a r k -> phase s a
| P_flwr r k : ph_flwr s a r k -> phase s a.

End Inv.
