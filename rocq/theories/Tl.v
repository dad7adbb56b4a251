(** Transaction-level machine: one request is served as a unit.  This is a
    proof device standing between [Rtl] and the specifications; the theorem
    that [Rtl] refines it is in RefineProofs.v.  It reuses the combinational
    units of Units.v, so it says nothing new about data formats: it only removes
    the pipeline, the stalls and the interleaving. *)
From Coq Require Import NArith List Bool Lia.
From Verif Require Import Bits Params Msg Units.
Import ListNotations.
Open Scope N_scope.

(** Cache contents: tag entry per way and set, data array rows, replacement bit
    per set (Dpath 175, 182, 317). *)
Record cst := mkC { ct : N -> N -> N; cd : N -> N; cr : N -> N }.

Section Tl.
Variable p : params.

Definition ones_te : N := N.ones (tagarrw p).

(** Update of one tag entry / one data row. *)
Definition tset (T : N -> N -> N) (w i : N) (v : N) : N -> N -> N :=
  fun w' i' => if (w' =? w) && (i' =? i) then v else T w' i'.

Section Req.
Variable c : cst.
Variable r : creq.
Let idx := a_idx p (cq_addr r).
Let off := a_off p (cq_addr r).
Let tag := a_tag p (cq_addr r).
Let len := cq_len r.
Definition tl_ent (w : N) : N := ct c w (a_idx p (cq_addr r)).
Definition tl_pu : bool * bool * N := pu_compare p true false (a_tag p (cq_addr r)) tl_ent.
Definition tl_hit : bool := fst (fst tl_pu).
Definition tl_inval : bool := snd (fst tl_pu).
Definition tl_hw : N := snd tl_pu.
Definition tl_rep : N := cr c (a_idx p (cq_addr r)).
Definition tl_row (w : N) : N := indexer p (a_idx p (cq_addr r)) w.
Definition tl_isamo : bool := is_amo (cq_type r).
(** data as it travels down the pipeline (Dpath 90-101) *)
Definition tl_data : N := replicator p tl_isamo (cq_len r) (cq_data r).
(** data after a round trip through the MSHR (Dpath 203, 90-101) *)
Definition tl_data_replay : N := replicator p false (cq_len r) (slice tl_data 0 (p_dbw p)).

(** victim / refill way of a READ or WRITE (Ctrl 480-493), and of an AMO (494-495) *)
Definition tl_way : N :=
  if tl_isamo then tl_hw
  else if tl_hit then tl_hw else if tl_inval then tl_hw else tl_rep.
(** Ctrl 544-549, 565 *)
Definition tl_evict : bool :=
  if tl_isamo then line_dirty p true (tl_ent tl_hw) && (tl_hit || tl_inval)
  else negb tl_inval && (negb tl_hit && line_dirty p true (tl_ent tl_rep)).
(** dirty bits remembered across the miss (Dpath 209, Ctrl 653-656) *)
Definition tl_dirty : N := if tl_evict then 0 else te_dty p (tl_ent tl_way).
(** replacement bit written by the request (Ctrl 554-569) *)
Definition tl_rep' : N :=
  if tl_isamo then repl_policy p true true (not1 tl_hw) tl_rep
  else repl_policy p true (tl_hit || tl_inval) tl_hw tl_rep.
Definition tl_rep_en : bool := if tl_isamo then tl_hit || tl_inval else true.
Definition tl_crep : N -> N :=
  if tl_rep_en then upd (cr c) (a_idx p (cq_addr r)) tl_rep' else cr c.

(** Memory requests *)
Definition line_addr (a : N) : N := mk_addr p (a_tag p a) (a_idx p a) 0.
Definition evict_req (w : N) : mreq :=
  mkMReq T_WRITE (cq_opq r) (line_addr (mk_addr p (te_tag p (tl_ent w)) idx 0)) 0
         (te_dty p (tl_ent w)) (cd c (tl_row w)).
Definition refill_req : mreq :=
  mkMReq T_READ (cq_opq r) (line_addr (cq_addr r)) 0 tl_dirty tl_data.
Definition amo_req : mreq :=
  let ol := off_len p true off len in
  mkMReq (cq_type r) (cq_opq r) (mk_addr p tag idx (fst ol)) (snd ol) tl_dirty tl_data.
Definition main_req : mreq := if tl_isamo then amo_req else refill_req.

(** READ or WRITE hit *)
Definition tl_clean_hit : bool :=
  negb tl_inval && negb (word_dirty p (tl_ent tl_hw) off len) && (cq_type r =? T_WRITE).
Definition ent_wr_hit : N :=
  mwrite (tl_ent tl_hw)
         (mk_te p (te_val p (tl_ent tl_hw)) (set_dirty p (te_dty p (tl_ent tl_hw)) off len) tag)
         ones_te.
Definition tl_wtag (T : N -> N -> N) : N -> N -> N :=
  if tl_clean_hit then tset T tl_hw idx
    (mwrite (T tl_hw idx)
       (mk_te p (te_val p (tl_ent tl_hw)) (set_dirty p (te_dty p (tl_ent tl_hw)) off len) tag)
       ones_te) else T.
Definition tl_wdat (D : N -> N) (w data : N) : N -> N :=
  if cq_type r =? T_WRITE
  then upd D (tl_row w) (mwrite (D (tl_row w)) data (wben_req p off len)) else D.
Definition tl_read (line : N) : N :=
  fast_select p (cq_type r =? T_READ) false len off line.

(** refill of a missing line with memory data [d] (Ctrl 374, 605) *)
Definition ent_refill (old : N) : N := mwrite old (mk_te p true tl_dirty tag) ones_te.
Definition tl_refill_tag (T : N -> N -> N) : N -> N -> N :=
  tset T tl_way idx (ent_refill (T tl_way idx)).
Definition tl_refill_dat (D : N -> N) (d : N) : N -> N :=
  upd D (tl_row tl_way) (mwrite (D (tl_row tl_way)) d (wben_dirty p tl_dirty)).
(** write replay (Ctrl 376, 607) *)
Definition tl_replay_tag (T : N -> N -> N) : N -> N -> N :=
  if cq_type r =? T_WRITE
  then tset T tl_way idx
         (mwrite (T tl_way idx) (mk_te p true (set_dirty p tl_dirty off len) tag) ones_te)
  else T.

(** AMO (Ctrl 377, 428-429) *)
Definition tl_amo_tag (T : N -> N -> N) : N -> N -> N :=
  if tl_hit || tl_inval
  then tset T tl_hw idx (mwrite (T tl_hw idx) (mk_te p false 0 tag) ones_te) else T.

Definition tl_resp (test data : N) : cresp :=
  mkCResp (cq_type r) (cq_opq r) test (cq_len r) data.
End Req.

(** Line number [k]: way and set (Ctrl 404, 421-424). *)
Definition lway (k : N) : N := k mod p_assoc p.
Definition lidx (k : N) : N := slice k (clog_asso p) (bw_lines p).

(** INV: clear the valid bit of line entries (Ctrl 384-385) *)
Definition ent_inv (e : N) : N := mwrite e (mk_te p false 0 0) (mk_te p true 0 0).
(** FLUSH: clear the dirty bits (Ctrl 389-390) *)
Definition ent_clean (e : N) : N := mwrite e (mk_te p false 0 0) (mk_te p false (N.ones (dtyw p)) 0).

(** the lines the cache really has *)
Definition inrange (w i : N) : bool := (w <? p_assoc p) && (i <? nblocks p).
Definition tmap (f : N -> N) (T : N -> N -> N) : N -> N -> N :=
  fun w i => if inrange w i then f (T w i) else T w i.

(** Lines written back by FLUSH, from line [k-1] down to 0 (Ctrl 206-221). *)
Definition flush_req (c : cst) (opq k : N) : mreq :=
  let e := ct c (lway k) (lidx k) in
  mkMReq T_WRITE opq (line_addr (mk_addr p (te_tag p e) (lidx k) 0)) 0 (te_dty p e)
         (cd c (indexer p (lidx k) (lway k))).
Fixpoint flush_reqs (c : cst) (opq : N) (k : nat) : list mreq :=
  match k with
  | O => []
  | S k' => (if line_dirty p true (ct c (lway (N.of_nat k')) (lidx (N.of_nat k')))
             then [flush_req c opq (N.of_nat k')] else []) ++ flush_reqs c opq k'
  end.

(** Memory requests a request needs in cache state [c], in order. *)
Definition tl_reqs (c : cst) (r : creq) : list mreq :=
  if cq_type r =? T_INV then []
  else if cq_type r =? T_FLUSH then flush_reqs c (cq_opq r) (N.to_nat (total_lines p))
  else if tl_isamo r then
    (if tl_evict c r then [evict_req c r (tl_way c r)] else []) ++ [amo_req c r]
  else if tl_hit c r then []
  else (if tl_evict c r then [evict_req c r (tl_way c r)] else []) ++ [refill_req c r].

(** New cache state and response once all memory requests are answered;
    [d] is the data of the last answer. *)
Definition tl_fin (c : cst) (r : creq) (d : N) : cst * cresp :=
  if cq_type r =? T_INV then
    (mkC (tmap ent_inv (ct c)) (cd c) (cr c), tl_resp r 0 0)
  else if cq_type r =? T_FLUSH then
    (mkC (tmap ent_clean (ct c)) (cd c) (cr c), tl_resp r 0 0)
  else if tl_isamo r then
    (mkC (tl_amo_tag c r (ct c)) (cd c) (tl_crep c r), tl_resp r 0 (slice d 0 32))
  else if tl_hit c r then
    (mkC (tl_wtag c r (ct c)) (tl_wdat r (cd c) (tl_hw c r) (tl_data r)) (tl_crep c r),
     tl_resp r 1 (tl_read r (cd c (tl_row r (tl_hw c r)))))
  else
    let D1 := tl_refill_dat c r (cd c) d in
    (mkC (tl_replay_tag c r (tl_refill_tag c r (ct c)))
         (tl_wdat r D1 (tl_way c r) (tl_data_replay r)) (tl_crep c r),
     tl_resp r 0 (tl_read r (D1 (tl_row r (tl_way c r))))).

(** ** The machine *)
Record acur := mkCur { u_req : creq; u_todo : list mreq; u_out : list mreq; u_last : N }.
Record ast := mkA { a_c : cst; a_cur : option acur; a_pend : list cresp }.

(** A memory request as expected, except that the opaque field of flush
    write-backs is whatever the idle request port shows (Dpath 65-67, 363). *)
Definition mreq_match (r : creq) (m m' : mreq) : Prop :=
  mq_type m = mq_type m' /\ mq_addr m = mq_addr m' /\ mq_len m = mq_len m' /\
  mq_mask m = mq_mask m' /\ mq_data m = mq_data m' /\
  (cq_type r <> T_FLUSH -> mq_opq m = mq_opq m').

(** Requests the control unit knows (Ctrl 270-284), minus WRITE_INIT. *)
Definition wf_type (t : N) : Prop :=
  t = T_READ \/ t = T_WRITE \/ is_amo t = true \/ t = T_INV \/ t = T_FLUSH.

Inductive a_acc : ast -> creq -> ast -> Prop :=
| A_acc : forall c r pd, wf_type (cq_type r) ->
    a_acc (mkA c None pd) r (mkA c (Some (mkCur r (tl_reqs c r) [] 0)) pd).
(** A flush sends a write-back only when the previous one is acknowledged. *)
Inductive a_send : ast -> mreq -> ast -> Prop :=
| A_send : forall c r e m todo out l pd, mreq_match r e m ->
    (cq_type r = T_FLUSH -> out = []) -> pd = [] ->
    a_send (mkA c (Some (mkCur r (e :: todo) out l)) pd) m
           (mkA c (Some (mkCur r todo (out ++ [m]) l)) pd).
Inductive a_recv : ast -> mresp -> ast -> Prop :=
| A_recv : forall c r m todo out l pd x, mr_type x = mq_type m ->
    a_recv (mkA c (Some (mkCur r todo (m :: out) l)) pd) x
           (mkA c (Some (mkCur r todo out (mr_data x))) pd).
Inductive a_done : ast -> ast -> Prop :=
| A_done : forall c r l pd,
    a_done (mkA c (Some (mkCur r [] [] l)) pd)
           (mkA (fst (tl_fin c r l)) None (pd ++ [snd (tl_fin c r l)])).
Inductive a_emit : ast -> cresp -> ast -> Prop :=
| A_emit : forall c u y pd, a_emit (mkA c u (y :: pd)) y (mkA c u pd).

End Tl.
