(** Cycle-accurate model of the blocking cache:
    BlockingCacheCtrlRTL.py, BlockingCacheDpathRTL.py, wired together by
    BlockingCacheRTL.py 56-72.  Every wire is a definition citing the lines it
    models.  [step] is one clock cycle with reset low; [reset_state]
    describes the registers after a cycle with reset high. *)
From Coq Require Import NArith List Bool Lia.
From Verif Require Import Bits Params Msg Units.
Import ListNotations.
Open Scope N_scope.

(** M0 FSM states (Ctrl 26-33). *)
Inductive fsm_t := F_INIT | F_READY | F_REPLAY | F_INV | F_FLUSH | F_FLUSH_WAIT.

(** Transactions (Ctrl 54-84). *)
Inductive trans :=
| TR_INVALID | TR_REFILL | TR_REPLAY_READ | TR_REPLAY_WRITE | TR_CLEAN_HIT
| TR_READ_REQ | TR_WRITE_REQ | TR_INIT_REQ | TR_CACHE_INIT | TR_AMO_REQ | TR_REPLAY_AMO
| TR_INV_START | TR_INV_WRITE | TR_REPLAY_INV
| TR_FLUSH_START | TR_FLUSH_READ | TR_FLUSH_WAIT | TR_FLUSH_WRITE | TR_REPLAY_FLUSH.

Definition fsm_eqb (a b : fsm_t) : bool :=
  match a, b with
  | F_INIT, F_INIT | F_READY, F_READY | F_REPLAY, F_REPLAY | F_INV, F_INV
  | F_FLUSH, F_FLUSH | F_FLUSH_WAIT, F_FLUSH_WAIT => true
  | _, _ => false
  end.

Definition trans_eqb (a b : trans) : bool :=
  match a, b with
  | TR_INVALID, TR_INVALID | TR_REFILL, TR_REFILL | TR_REPLAY_READ, TR_REPLAY_READ
  | TR_REPLAY_WRITE, TR_REPLAY_WRITE | TR_CLEAN_HIT, TR_CLEAN_HIT
  | TR_READ_REQ, TR_READ_REQ | TR_WRITE_REQ, TR_WRITE_REQ | TR_INIT_REQ, TR_INIT_REQ
  | TR_CACHE_INIT, TR_CACHE_INIT | TR_AMO_REQ, TR_AMO_REQ | TR_REPLAY_AMO, TR_REPLAY_AMO
  | TR_INV_START, TR_INV_START | TR_INV_WRITE, TR_INV_WRITE | TR_REPLAY_INV, TR_REPLAY_INV
  | TR_FLUSH_START, TR_FLUSH_START | TR_FLUSH_READ, TR_FLUSH_READ
  | TR_FLUSH_WAIT, TR_FLUSH_WAIT | TR_FLUSH_WRITE, TR_FLUSH_WRITE
  | TR_REPLAY_FLUSH, TR_REPLAY_FLUSH => true
  | _, _ => false
  end.

(** Registers and SRAM contents. *)
Record st := mkSt {
  fsm : fsm_t;            (* FSM_state_M0, Ctrl 160 *)
  ctr : N;                (* counter_M0, Ctrl 139 *)
  mrv : bool;             (* memresp_en_M0, Ctrl 125 *)
  mrm : mresp;            (* pipeline_reg_M0, Dpath 45 *)
  msn : N;                (* MSHR.num_entries_reg, MSHR.py 37 *)
  msr : mshr;             (* MSHR.storage_regs, MSHR.py 57 *)
  t1 : trans;             (* trans_M1, Ctrl 444 *)
  wp1 : N;                (* way_ptr_M1, Ctrl 450 *)
  utw1 : N;               (* update_tag_way_M1, Ctrl 454 *)
  q1 : creq;              (* cachereq_M1, Dpath 154 *)
  fi1 : N;                (* flush_idx_M1, Dpath 159 *)
  dm1 : N;                (* dty_bits_mask_M1, Dpath 164 *)
  rep : N -> N;           (* replacement_bits_M1 (registers.py 27), bit i as [rep i] *)
  tram : N -> N -> N;     (* tag_arrays_M1[way] contents, Dpath 182 *)
  tdout : N -> N;         (* tag_arrays_M1[way] output register *)
  tsr : N -> N;           (* tag_array_rdata_M1[way].stall_reg, Dpath 192 *)
  hsr : bool * N;         (* hit_stall_engine.stall_reg, Dpath 248 *)
  wst : bool;             (* was_stalled, Ctrl 573 *)
  t2 : trans;             (* trans_M2, Ctrl 663 *)
  ev2 : bool;             (* is_evict_M2, Ctrl 667 *)
  hit2 : bool;            (* hit_reg_M2, Ctrl 673 *)
  fs2 : bool;             (* has_flush_sent_M2, Ctrl 678 *)
  q2 : creq;              (* cachereq_M2, Dpath 309 *)
  wm2 : N;                (* write_mask_M2, Dpath 313 *)
  dram : N -> N;          (* data_array_M2 contents, Dpath 317 *)
  ddout : N;              (* data_array_M2 output register *)
  dsr : N                 (* stall_engine_M2.stall_reg, Dpath 324 *)
}.

(** Input ports (Ctrl 98-108, Dpath 33-36). *)
Record inp := mkInp {
  i_req_en : bool;    (* cachereq_en *)
  i_req : creq;       (* cachereq_Y *)
  i_resp_rdy : bool;  (* cacheresp_rdy *)
  i_mreq_rdy : bool;  (* memreq_rdy *)
  i_mresp_en : bool;  (* memresp_en *)
  i_mresp : mresp     (* memresp_Y *)
}.

(** Output ports; a message is [Some] exactly when its [en] is high.
    memresp_rdy is the constant 1 (Ctrl 119). *)
Record outp := mkOut {
  o_req_rdy : bool;
  o_resp : option cresp;
  o_mreq : option mreq
}.

Section Rtl.
Variable p : params.
Variable s : st.

(** *** MSHR (MSHR.py 49-54) *)
Definition mshr_empty : bool := msn s =? 0.
Definition mshr_type : N := cq_type (ms_req (msr s)).

(** *** M1: tag array read data through the stall engine
    (Dpath 192-195, StallEngine.py 33-41, Ctrl 643) *)
Definition tagq (w : N) : N := if wst s then tsr s w else tdout s w.

(** Ctrl 577-582 *)
Definition tag_proc_en : bool :=
  negb (ev2 s) &&
  (trans_eqb (t1 s) TR_READ_REQ || trans_eqb (t1 s) TR_WRITE_REQ ||
   trans_eqb (t1 s) TR_AMO_REQ || trans_eqb (t1 s) TR_FLUSH_READ).

(** Ctrl 645 *)
Definition is_init1 : bool := trans_eqb (t1 s) TR_INIT_REQ.

Definition idx1 : N := a_idx p (cq_addr (q1 s)).
Definition off1 : N := a_off p (cq_addr (q1 s)).

(** Dpath 224-234 *)
Definition pu : bool * bool * N :=
  pu_compare p tag_proc_en is_init1 (a_tag p (cq_addr (q1 s))) tagq.
Definition pu_hit : bool := fst (fst pu).
Definition pu_inval : bool := snd (fst pu).
Definition pu_hit_way : N := snd pu.
Definition pu_ld (w : N) : bool := line_dirty p tag_proc_en (tagq w).
Definition pu_wd (w : N) : bool := word_dirty p (tagq w) off1 (cq_len (q1 s)).
Definition pu_ent (w : N) : N := pu_entry tag_proc_en (tagq w).

(** Dpath 175-179, registers.py 40 *)
Definition rep_rd : N := rep s idx1.

(** *** hit stall engine (Dpath 247-252, Ctrl 644) *)
Definition hsr_en : bool := negb (wst s) && negb (ev2 s).
Definition hsr_in : bool * N := (pu_hit || pu_inval, pu_hit_way).
Definition hitq : bool * N := if hsr_en then hsr_in else hsr s.

(** *** M1 status (Ctrl 519-571) *)
Definition is_rwi1 : bool :=
  trans_eqb (t1 s) TR_INIT_REQ || trans_eqb (t1 s) TR_WRITE_REQ || trans_eqb (t1 s) TR_READ_REQ.
Definition is_amo1 : bool := trans_eqb (t1 s) TR_AMO_REQ.

(** Ctrl 527, 533, 563 *)
Definition hit1 : bool := if is_rwi1 || is_amo1 then pu_hit else false.

(** Ctrl 522, 535-536, 564 *)
Definition is_dty1 : bool :=
  if is_rwi1 then (if hit1 then pu_wd pu_hit_way else pu_ld rep_rd)
  else if is_amo1 then pu_ld pu_hit_way
  else pu_ld rep_rd.

(** Ctrl 521, 544-549, 565 *)
Definition is_evict1 : bool :=
  if is_rwi1 then negb pu_inval && (negb hit1 && is_dty1)
  else if is_amo1 then is_dty1 && (hit1 || pu_inval)
  else false.

(** Ctrl 528, 550-552 *)
Definition write_hit_clean : bool :=
  is_rwi1 && negb pu_inval && (hit1 && negb is_dty1) && trans_eqb (t1 s) TR_WRITE_REQ.

(** Ctrl 525, 538-540, 554-558, 566-567 *)
Definition repreq_en1 : bool :=
  if is_rwi1 then is_init1 || negb is_evict1
  else if is_amo1 then hit1 || pu_inval
  else false.

(** Ctrl 526, 559, 568 *)
Definition repreq_hit_ptr1 : N :=
  if is_rwi1 then (if negb is_evict1 then pu_hit_way else 0)
  else if is_amo1 then (if hit1 || pu_inval then not1 pu_hit_way else 0)
  else 0.

(** Ctrl 524, 540, 560, 569 *)
Definition repreq_is_hit1 : bool :=
  if is_rwi1 then (if negb is_evict1 then hit1 || pu_inval else false)
  else if is_amo1 then (hit1 || pu_inval)
  else false.

(** Ctrl 470-475 *)
Definition rep_wr : N := repl_policy p repreq_en1 repreq_is_hit1 repreq_hit_ptr1 rep_rd.

(** Ctrl 480-498 *)
Definition way_offset1 : N :=
  match t1 s with
  | TR_REPLAY_READ | TR_REPLAY_WRITE | TR_REFILL => wp1 s
  | TR_READ_REQ | TR_WRITE_REQ =>
      if negb hit1 then (if pu_inval then pu_hit_way else rep_rd) else pu_hit_way
  | TR_AMO_REQ => snd hitq
  | TR_FLUSH_READ | TR_CACHE_INIT => utw1 s
  | _ => pu_hit_way
  end.

(** Ctrl 500-512 *)
Definition flush_refill_bypass : bool := trans_eqb (t1 s) TR_FLUSH_WRITE.
Definition has_flush_sent1 : bool := trans_eqb (t1 s) TR_FLUSH_READ && pu_ld (utw1 s).
Definition no_flush_needed1 : bool := trans_eqb (t1 s) TR_FLUSH_READ && negb (pu_ld (utw1 s)).

(** *** M1 control table (Ctrl 595-631).
    (wben command, write?, array enable, ostall, evict mux, MSHR alloc) *)
Definition cs1 : wben_cmd * bool * bool * bool * bool * bool :=
  match t1 s with
  | TR_INVALID      => (WB_NONE,  false, false, false, false, false)
  | TR_CACHE_INIT   => (WB_DIRTY, true,  true,  false, true,  false)
  | TR_REFILL       => (WB_DIRTY, true,  true,  false, false, false)
  | TR_REPLAY_READ  => (WB_NONE,  false, true,  false, false, false)
  | TR_REPLAY_WRITE => (WB_REQ,   true,  true,  false, false, false)
  | TR_REPLAY_AMO | TR_REPLAY_INV | TR_CLEAN_HIT
                    => (WB_NONE,  false, false, false, false, false)
  | t =>
    if is_evict1 then  (WB_NONE,  false, true,  true,  true,  true)
    else match t with
    | TR_INIT_REQ    => (WB_REQ,   true,  true,  false, false, false)
    | TR_AMO_REQ     => (WB_NONE,  false, false, false, false, true)
    | TR_INV_START   => (WB_NONE,  false, false, false, false, true)
    | TR_INV_WRITE   => (WB_NONE,  false, false, false, false, false)
    | TR_FLUSH_START => (WB_NONE,  false, false, false, false, true)
    | TR_FLUSH_READ  => (WB_NONE,  false, has_flush_sent1, false, true, false)
    | TR_FLUSH_WAIT | TR_FLUSH_WRITE | TR_REPLAY_FLUSH
                     => (WB_NONE,  false, false, false, false, false)
    | TR_READ_REQ  => if negb hit1 then (WB_NONE, false, false, false, false, true)
                      else (WB_NONE, false, true, false, false, false)
    | TR_WRITE_REQ => if negb hit1 then (WB_NONE, false, false, false, false, true)
                      else (WB_REQ, true, true, false, false, false)
    | _ => (WB_NONE, false, false, false, false, false)
    end
  end.
Definition cs1_wben : wben_cmd := fst (fst (fst (fst (fst cs1)))).
Definition cs1_wr : bool := snd (fst (fst (fst (fst cs1)))).
Definition cs1_val : bool := snd (fst (fst (fst cs1))).
Definition ostall1 : bool := snd (fst (fst cs1)).
Definition cs1_evmux : bool := snd (fst cs1).
Definition cs1_alloc : bool := snd cs1.

(** *** M1 datapath *)
(** Ctrl 649-651, Dpath 260-263 *)
Definition flush_idx_sel1 : bool :=
  trans_eqb (t1 s) TR_FLUSH_READ || trans_eqb (t1 s) TR_CACHE_INIT.
Definition ev_idx1 : N := if flush_idx_sel1 then fi1 s else idx1.
(** Dpath 254-268 *)
Definition evict_addr1 : N := mk_addr p (te_tag p (tagq way_offset1)) ev_idx1 0.
(** Dpath 270-276, 292-295 *)
Definition addr1_2 : N := if cs1_evmux then evict_addr1 else cq_addr (q1 s).
Definition q1_2 : creq :=
  mkCReq (cq_type (q1 s)) (cq_opq (q1 s)) addr1_2 (cq_len (q1 s)) (cq_data (q1 s)).
(** Dpath 282-284 *)
Definition drow1 : N := indexer p (a_idx p addr1_2) way_offset1.
(** Dpath 286-290 *)
Definition dwben1 : N := wben p cs1_wben (dm1 s) off1 (cq_len (q1 s)).
(** Dpath 244 *)
Definition write_mask1 : N := te_dty p (pu_ent way_offset1).
(** Dpath 198-209; the dirty mask is zero if evicting (Ctrl 656) *)
Definition mshr_alloc_in : mshr :=
  mkMshr (mkCReq (cq_type (q1 s)) (cq_opq (q1 s)) (cq_addr (q1 s)) (cq_len (q1 s))
                 (slice (cq_data (q1 s)) 0 (p_dbw p)))
         way_offset1 (fst hitq)
         (if is_evict1 then 0 else write_mask1).

(** *** M2 datapath: data array output through the stall engine (Dpath 324-326) *)
Definition dataq : N := if wst s then dsr s else ddout s.

(** *** M0 (input-independent part) *)
(** Ctrl 130-136 *)
Definition mr_val : bool := mrv s && negb (mr_type (mrm s) =? T_WRITE).
Definition mr_ack : bool := mrv s && (mr_type (mrm s) =? T_WRITE).
(** Ctrl 152-153 *)
Definition prev_flush_done : bool := no_flush_needed1 || mr_ack || flush_refill_bypass.
(** Ctrl 324-325 *)
Definition mux_sel0 : bool := fsm_eqb (fsm s) F_REPLAY || mrv s.

Variable i : inp.

(** *** M2 control table (Ctrl 698-737).
    (data_size_mux_en, read_data_mux_sel, ostall, memreq_type, memreq_en, cacheresp_en) *)
Definition cs2 : bool * bool * bool * N * bool * bool :=
  match t2 s with
  | TR_INVALID | TR_CACHE_INIT | TR_INV_START | TR_INV_WRITE | TR_CLEAN_HIT
  | TR_FLUSH_START | TR_FLUSH_WAIT | TR_FLUSH_WRITE
      => (false, true, false, T_READ, false, false)
  | t =>
    if negb (i_mreq_rdy i) || negb (i_resp_rdy i) then (false, true, true, T_READ, false, false)
    else match t with
    | TR_FLUSH_READ => (false, negb (fs2 s), false, T_WRITE, fs2 s, false)
    | _ =>
      if ev2 s then (false, false, false, T_WRITE, true, false)
      else match t with
      | TR_REPLAY_READ  => (true,  false, false, T_READ,  false, true)
      | TR_REPLAY_WRITE => (false, true,  false, T_WRITE, false, true)
      | TR_REPLAY_AMO   => (false, true,  false, T_READ,  false, true)
      | TR_REPLAY_INV   => (false, true,  false, T_READ,  false, true)
      | TR_REPLAY_FLUSH => (false, true,  false, T_READ,  false, true)
      | TR_INIT_REQ     => (false, true,  false, T_READ,  false, true)
      | TR_AMO_REQ      => (false, true,  false, T_AMO_ADD, true, false)
      | TR_READ_REQ  => if hit2 s then (true,  false, false, T_READ, false, true)
                        else (false, true, false, T_READ, true, false)
      | TR_WRITE_REQ => if hit2 s then (false, true,  false, T_READ, false, true)
                        else (false, true, false, T_READ, true, false)
      | _ => (false, true, false, T_READ, false, false)
      end
    end
  end.
Definition cs2_dsize : bool := fst (fst (fst (fst (fst cs2)))).
Definition cs2_rdmux : bool := snd (fst (fst (fst (fst cs2)))).
Definition ostall2 : bool := snd (fst (fst (fst cs2))).
Definition cs2_mtype : N := snd (fst (fst cs2)).
Definition memreq_en : bool := snd (fst cs2).
Definition resp_en : bool := snd cs2.

(** Ctrl 732-735 *)
Definition memreq_type : N :=
  if T_AMO_ADD <=? cs2_mtype then cq_type (q2 s) else cs2_mtype.
(** Ctrl 752-754 *)
Definition is_amo2 : bool :=
  (trans_eqb (t2 s) TR_AMO_REQ || trans_eqb (t2 s) TR_REPLAY_AMO) && negb (ev2 s).
(** Dpath 328-331 *)
Definition rdmux2 : N := if cs2_rdmux then cq_data (q2 s) else dataq.
Definition off2 : N := a_off p (cq_addr (q2 s)).
(** Dpath 334-367 *)
Definition memreq_out : mreq :=
  let ol := off_len p is_amo2 off2 (cq_len (q2 s)) in
  mkMReq memreq_type (cq_opq (q2 s))
         (mk_addr p (a_tag p (cq_addr (q2 s))) (a_idx p (cq_addr (q2 s))) (fst ol))
         (snd ol) (wm2 s) rdmux2.
(** Dpath 369-374 *)
Definition resp_out : cresp :=
  mkCResp (cq_type (q2 s)) (cq_opq (q2 s)) (b2n (hit2 s)) (cq_len (q2 s))
          (fast_select p cs2_dsize is_amo2 (cq_len (q2 s)) off2 rdmux2).

(** *** Stalls (Ctrl 319, 467, 683) *)
Definition stall01 : bool := ostall1 || ostall2.

(** *** M0 *)
(** Dpath 54-63: request mux *)
Definition req_mux0 : creq := if mux_sel0 then ms_req (msr s) else i_req i.
Definition req_type0 : N := cq_type req_mux0.

(** Ctrl 231-284 *)
Definition trans0 : trans :=
  match fsm s with
  | F_INIT => TR_CACHE_INIT
  | f =>
    if write_hit_clean then TR_CLEAN_HIT
    else match f with
    | F_REPLAY =>
        if negb mshr_empty && (mshr_type =? T_WRITE) then TR_REPLAY_WRITE
        else if negb mshr_empty && (mshr_type =? T_READ) then TR_REPLAY_READ
        else if negb mshr_empty && (mshr_type =? T_INV) then TR_REPLAY_INV
        else if negb mshr_empty && (mshr_type =? T_FLUSH)
             then (if prev_flush_done then TR_REPLAY_FLUSH else TR_FLUSH_WAIT)
        else TR_INVALID
    | F_INV => TR_INV_WRITE
    | F_FLUSH => if has_flush_sent1 then TR_FLUSH_WAIT else TR_FLUSH_READ
    | F_FLUSH_WAIT => if mr_ack then TR_FLUSH_WRITE else TR_FLUSH_WAIT
    | F_READY =>
        if mr_val && negb mshr_empty then
          if (mshr_type =? T_WRITE) || (mshr_type =? T_READ) then TR_REFILL
          else if is_amo mshr_type then TR_REPLAY_AMO
          else TR_INVALID
        else if mshr_empty && i_req_en i then
          if req_type0 =? T_INIT then TR_INIT_REQ
          else if req_type0 =? T_READ then TR_READ_REQ
          else if req_type0 =? T_WRITE then TR_WRITE_REQ
          else if is_amo req_type0 then TR_AMO_REQ
          else if req_type0 =? T_INV then TR_INV_START
          else if req_type0 =? T_FLUSH then TR_FLUSH_START
          else TR_INVALID
        else TR_INVALID
    | F_INIT => TR_CACHE_INIT
    end
  end.

(** Ctrl 165-221 *)
Definition fsm_next : fsm_t :=
  match fsm s with
  | F_INIT => if ctr s =? 0 then F_READY else F_INIT
  | F_READY =>
      if mr_val && ((mshr_type =? T_WRITE) || (mshr_type =? T_READ)) then F_REPLAY
      else if mshr_empty && i_req_en i then
        if req_type0 =? T_INV then F_INV
        else if req_type0 =? T_FLUSH then F_FLUSH
        else F_READY
      else F_READY
  | F_INV => if ctr s =? 0 then F_REPLAY else F_INV
  | F_REPLAY =>
      if negb mshr_empty && (mshr_type =? T_FLUSH)
      then (if prev_flush_done then F_READY else F_FLUSH_WAIT)
      else F_READY
  | F_FLUSH =>
      if has_flush_sent1 then F_FLUSH_WAIT
      else if ctr s =? 0 then F_REPLAY
      else F_FLUSH
  | F_FLUSH_WAIT =>
      if mr_ack
      then (if ctr s =? trunc (bw_lines p) (total_lines p - 1) then F_REPLAY else F_FLUSH)
      else F_FLUSH_WAIT
  end.

(** Ctrl 286-298 *)
Definition ctr_en : bool :=
  fsm_eqb (fsm s) F_INIT || fsm_eqb (fsm s) F_INV || trans_eqb trans0 TR_FLUSH_READ.
(** counters.py 24-32: count down, wrapping in [bw_lines] bits *)
Definition ctr_dec : N := trunc (bw_lines p) (ctr s + (2 ^ bw_lines p - 1)).

(** Ctrl 302-307 *)
Definition upd_way_idx0 : N :=
  if trans_eqb trans0 TR_FLUSH_WRITE || trans_eqb trans0 TR_REPLAY_FLUSH
  then trunc (bw_lines p) (ctr s + 1) else ctr s.

(** *** M0 control table (Ctrl 361-399).
    (tag write enable, wdata_mux, addr_mux, write?, tag command, idx sel, tag sel, dealloc) *)
Definition wben_all : N := N.ones (tagarrw p).                               (* Ctrl 363 *)
Definition wben_val : N := mk_te p true 0 0.                                 (* Ctrl 356 *)
Definition wben_dty : N := mk_te p false (N.ones (dtyw p)) 0.                (* Ctrl 357 *)
Definition cs0 : N * bool * bool * bool * tag_cmd * bool * bool * bool :=
  match trans0 with
  | TR_CACHE_INIT   => (wben_all, false, false, true,  TC_CLEAR,     true,  false, false)
  | TR_REFILL       => (wben_all, true,  false, true,  TC_RD_REFILL, false, false, false)
  | TR_REPLAY_READ  => (wben_dty, false, false, false, TC_RD_REFILL, false, false, true)
  | TR_REPLAY_WRITE => (wben_all, false, false, true,  TC_WR_REFILL, false, false, true)
  | TR_REPLAY_AMO   => (wben_all, true,  false, true,  TC_CLEAR,     false, false, true)
  | TR_CLEAN_HIT    => (wben_all, false, true,  true,  TC_WR_HIT,    false, false, false)
  | TR_INIT_REQ     => (wben_all, false, false, true,  TC_RD_REFILL, false, false, false)
  | TR_READ_REQ | TR_WRITE_REQ | TR_AMO_REQ | TR_INV_START | TR_FLUSH_START | TR_FLUSH_WAIT
  | TR_INVALID
                    => (0,        false, false, false, TC_NONE,      false, false, false)
  | TR_INV_WRITE    => (wben_val, false, false, true,  TC_INV,       true,  true,  false)
  | TR_REPLAY_INV   => (wben_val, false, false, true,  TC_INV,       true,  true,  true)
  | TR_FLUSH_READ   => (0,        false, false, false, TC_NONE,      true,  false, false)
  | TR_FLUSH_WRITE  => (wben_dty, false, false, true,  TC_FLUSH,     true,  true,  false)
  | TR_REPLAY_FLUSH => (wben_dty, false, false, true,  TC_FLUSH,     true,  true,  true)
  end.
Definition cs0_wben : N := fst (fst (fst (fst (fst (fst (fst cs0)))))).
Definition cs0_wdmux : bool := snd (fst (fst (fst (fst (fst (fst cs0)))))).
Definition cs0_admux : bool := snd (fst (fst (fst (fst (fst cs0))))).
Definition cs0_wr : bool := snd (fst (fst (fst (fst cs0)))).
Definition cs0_cmd : tag_cmd := snd (fst (fst (fst cs0))).
Definition cs0_idxsel : bool := snd (fst (fst cs0)).
Definition cs0_tagsel : bool := snd (fst cs0).
Definition cs0_dealloc : bool := snd cs0.

(** Ctrl 408-424: way selected by the low bits of the line counter *)
Definition ctr_way0 : N := upd_way_idx0 mod p_assoc p.
Definition is_ctr_way0 : bool :=
  match trans0 with
  | TR_CACHE_INIT | TR_INV_WRITE | TR_REPLAY_INV | TR_FLUSH_READ | TR_FLUSH_WRITE
  | TR_REPLAY_FLUSH => true
  | _ => false
  end.
Definition upd_tag_way0 : N := if is_ctr_way0 then ctr_way0 else 0.
(** Ctrl 412-438: enable of each tag array *)
Definition tag_val0 (w : N) : bool :=
  if is_ctr_way0 then w =? ctr_way0
  else match trans0 with
  | TR_REFILL | TR_REPLAY_WRITE => w =? ms_repl (msr s)
  | TR_REPLAY_AMO => ms_amo_hit (msr s) && (w =? ms_repl (msr s))
  | TR_INIT_REQ => w =? rep_rd
  | TR_CLEAN_HIT => w =? pu_hit_way
  | TR_READ_REQ | TR_WRITE_REQ | TR_AMO_REQ => true
  | _ => false
  end.

(** Ctrl 403-404 *)
Definition init_idx0 : N := slice upd_way_idx0 (clog_asso p) (bw_lines p).
(** Ctrl 405-406 *)
Definition is_amo0 : bool := trans_eqb trans0 TR_REPLAY_AMO || trans_eqb trans0 TR_AMO_REQ.

(** Dpath 65-101 *)
Definition addr0 : N := if cs0_admux then cq_addr (q1 s) else cq_addr req_mux0.
Definition len0 : N := if cs0_admux then cq_len (q1 s) else cq_len req_mux0.
Definition data0 : N :=
  if cs0_wdmux then mr_data (mrm s)
  else replicator p is_amo0 (cq_len req_mux0) (cq_data req_mux0).
Definition q0 : creq := mkCReq (cq_type req_mux0) (cq_opq req_mux0) addr0 len0 data0.

(** Dpath 104-143 *)
Definition upd_way_mux0 : N := if cs0_tagsel then upd_tag_way0 else pu_hit_way.
Definition new_entry0 : bool * N * N :=
  update_tag p cs0_cmd (pu_ent upd_way_mux0) (a_off p addr0) len0 (ms_dirty (msr s)).
Definition tag_idx0 : N := if cs0_idxsel then init_idx0 else a_idx p addr0.
Definition tag_tag0 : N := if cs0_tagsel then snd new_entry0 else a_tag p addr0.
Definition tag_wdata0 : N :=
  mk_te p (fst (fst new_entry0)) (snd (fst new_entry0)) tag_tag0.

(** *** Register enables *)
Definition reg_en0 : bool := negb stall01.                              (* Ctrl 401 *)
Definition is_cinit0 : bool := trans_eqb trans0 TR_CACHE_INIT.
Definition reg_en1 : bool := negb stall01 && negb is_evict1 && negb is_cinit0. (* Ctrl 634 *)
Definition creg_en1 : bool := reg_en1 || is_cinit0.                     (* Ctrl 638 *)
Definition is_cinit1 : bool := trans_eqb (t1 s) TR_CACHE_INIT.
Definition reg_en2 : bool := negb ostall2 && negb is_cinit1.            (* Ctrl 742 *)
Definition creg_en2 : bool := reg_en2 || is_cinit1.                     (* Ctrl 746 *)
Definition alloc_en : bool := cs1_alloc && negb stall01.                (* Ctrl 631 *)
Definition dealloc_en : bool := cs0_dealloc && negb stall01.            (* Ctrl 399 *)
Definition rep_en1 : bool := repreq_en1 && negb ostall2.                (* Ctrl 571 *)

(** MSHR.py 51-53 *)
Definition mshr_full : bool := (msn s =? 1) || ((msn s =? 0) && alloc_en).

(** Ctrl 334-336 *)
Definition req_rdy : bool :=
  negb (fsm_eqb (fsm s) F_INIT || write_hit_clean || stall01 || negb mshr_empty || mshr_full).

Definition output : outp :=
  mkOut req_rdy (if resp_en then Some resp_out else None)
        (if memreq_en then Some memreq_out else None).

(** One clock edge (reset low). *)
Definition next : st := {|
  fsm := if reg_en0 then fsm_next else fsm s;
  ctr := if reg_en0 && ctr_en then ctr_dec else ctr s;
  mrv := if reg_en0 then i_mresp_en i else mrv s;
  mrm := if reg_en0 then i_mresp i else mrm s;
  msn := if alloc_en then trunc 1 (msn s + 1)
         else if dealloc_en then trunc 1 (msn s + 1)  (* -1 in one bit *)
         else msn s;
  msr := if alloc_en then mshr_alloc_in else msr s;
  t1 := if creg_en1 then trans0 else t1 s;
  wp1 := if creg_en1 then ms_repl (msr s) else wp1 s;
  utw1 := if creg_en1 then upd_tag_way0 else utw1 s;
  q1 := if reg_en1 then q0 else q1 s;
  fi1 := if creg_en1 then init_idx0 else fi1 s;
  dm1 := if reg_en1 then ms_dirty (msr s) else dm1 s;
  rep := if rep_en1 then upd (rep s) idx1 rep_wr else rep s;
  tram := memo (fun w => sram_wr (tram s w) (tag_val0 w) cs0_wr tag_idx0 tag_wdata0 cs0_wben);
  tdout := memo (fun w => sram_rd (tram s w) (tdout s w) (tag_val0 w) cs0_wr tag_idx0);
  tsr := tagq;
  hsr := hitq;
  wst := ostall2;
  t2 := if creg_en2 then t1 s else t2 s;
  ev2 := if creg_en2 then is_evict1 else ev2 s;
  hit2 := if creg_en2 then hit1 else hit2 s;
  fs2 := if creg_en2 then has_flush_sent1 else fs2 s;
  q2 := if reg_en2 then q1_2 else q2 s;
  wm2 := if reg_en2 then write_mask1 else wm2 s;
  dram := sram_wr (dram s) cs1_val cs1_wr drow1 (cq_data (q1 s)) dwben1;
  ddout := sram_rd (dram s) (ddout s) cs1_val cs1_wr drow1;
  dsr := dataq
|}.

End Rtl.

Definition step (p : params) (s : st) (i : inp) : st * outp := (next p s i, output p s i).

(** Registers after reset: every [RegRst]/[RegEnRst] has its reset value; SRAM
    arrays, their output registers and the [RegEn] stall registers
    (StallEngine.py 33) are arbitrary. *)
Definition reset_state (p : params) (s : st) : Prop :=
  fsm s = F_INIT /\ ctr s = total_lines p - 1 /\ mrv s = false /\ mrm s = mresp0 /\
  msn s = 0 /\ msr s = mshr0 /\ t1 s = TR_INVALID /\ wp1 s = 0 /\ utw1 s = 0 /\
  q1 s = creq0 /\ fi1 s = 0 /\ dm1 s = 0 /\ (forall k, rep s k = 0) /\
  wst s = false /\ t2 s = TR_INVALID /\ ev2 s = false /\ hit2 s = false /\
  fs2 s = false /\ q2 s = creq0 /\ wm2 s = 0.

(** A concrete reset state with given SRAM contents (for examples). *)
Definition mk_reset (p : params) (t : N -> N -> N) (d : N -> N) : st := {|
  fsm := F_INIT; ctr := total_lines p - 1; mrv := false; mrm := mresp0; msn := 0; msr := mshr0;
  t1 := TR_INVALID; wp1 := 0; utw1 := 0; q1 := creq0; fi1 := 0; dm1 := 0; rep := fun _ => 0;
  tram := t; tdout := fun _ => 0; tsr := fun _ => 0; hsr := (false, 0); wst := false;
  t2 := TR_INVALID; ev2 := false; hit2 := false; fs2 := false; q2 := creq0; wm2 := 0;
  dram := d; ddout := 0; dsr := 0 |}.

(** Execution of a list of inputs. *)
Fixpoint run (p : params) (s : st) (is : list inp) : st * list outp :=
  match is with
  | [] => (s, [])
  | i :: r => let '(s1, o) := step p s i in
              let '(s2, os) := run p s1 r in (s2, o :: os)
  end.
