(** Combinational units of blocking_cache/units and the SRAM. *)
From Coq Require Import NArith List Bool Lia.
From Verif Require Import Bits Params Msg.
Import ListNotations.
Open Scope N_scope.

Section Units.
Variable p : params.

(** ** DataReplicator (arithmetics.py 18-85) *)

(** arithmetics.py 36-39: replicate the low [sub] bits over the line. *)
Definition replicate (sub x : N) : N :=
  bits_of (fun b => N.testbit x (b mod sub)) (p_clw p).

(** arithmetics.py 43-48: len=3 hack, 32-bit word zero-extended to 64 bits and
    replicated; 0 unless the data port has 32 bits. *)
Definition double_word (x : N) : N :=
  if (p_dbw p =? 32) && (64 <=? p_clw p)
  then bits_of (fun b => ((b mod 64) <? 32) && N.testbit x (b mod 64)) (p_clw p)
  else 0.

(** arithmetics.py 33 and 51 *)
Definition rep_n : N := clog2 (p_dbw p) - 2.
Definition rep_ninputs : N := rep_n + 2.

(** arithmetics.py 70-84: select of the output mux. *)
Definition rep_sel (amo : bool) (len : N) : N :=
  if amo then 0
  else if len =? 0 then rep_ninputs - 2
  else if len =? 3 then rep_ninputs - 1
  else fold_left (fun sel i => if len =? 2 ^ i then i + 1 else sel)
                 (range (rep_ninputs - 3)) (rep_ninputs - 2).

(** arithmetics.py 52-65, 85 *)
Definition replicator (amo : bool) (len x : N) : N :=
  let sel := rep_sel amo len in
  if sel =? 0 then trunc (p_dbw p) x
  else if sel =? rep_ninputs - 1 then double_word x
  else replicate (2 ^ (3 + (sel - 1))) x.

(** ** Indexer (arithmetics.py 105-111) *)
Definition indexer (idx way : N) : N :=
  trunc (bw_lines p) (idx + way * trunc (bw_lines p) (nblocks p)).

(** ** OffsetLenSelector (arithmetics.py 136-154); result (offset, len) *)
Definition off_len (amo : bool) (off len : N) : N * N :=
  if amo then (off, if p_dbw p =? 32 then 4 else len) else (0, 0).

(** ** WriteBitEnGen (arithmetics.py 156-227) *)
Inductive wben_cmd := WB_NONE | WB_REQ | WB_DIRTY. (* cache_constants.py 47-49 *)

(** arithmetics.py 177-198 *)
Definition word_mask (len : N) : N :=
  trunc (wbenw p / 8)
   (if len =? 1 then 1
    else if len =? 2 then 3
    else if len =? 3 then 255
    else if len =? trunc (lenw p) 4 then 15
    else if len =? trunc (lenw p) 8 then 255
    else if len =? trunc (lenw p) 16 then 65535
    else 0).

(** arithmetics.py 200-201 *)
Definition shifted_mask (off len : N) : N :=
  trunc (wbenw p / 8) (N.shiftl (word_mask len) off).

(** arithmetics.py 208-216 *)
Definition wben_req (off len : N) : N :=
  bits_of (fun i => N.testbit (shifted_mask off len) (i / 8)) (wbenw p).
Definition wben_dirty (dty : N) : N :=
  bits_of (fun i => negb (N.testbit dty (i / 32))) (wbenw p).

(** arithmetics.py 218-227 *)
Definition wben (cmd : wben_cmd) (dty off len : N) : N :=
  match cmd with
  | WB_REQ => wben_req off len
  | WB_DIRTY => wben_dirty dty
  | WB_NONE => 0
  end.

(** ** TagArrayRDataProcessUnit (arithmetics.py 233-303) *)

(** index of the 32-bit word inside the line, [offset[2:bitwidth_offset]] *)
Definition word_of (off : N) : N := slice off 2 (offw p).
(** ... and its successor, truncated to the same width (line 263) *)
Definition word_of_succ (off : N) : N := trunc (offw p - 2) (word_of off + 1).

(** arithmetics.py 254-265 *)
Definition word_dirty (e off len : N) : bool :=
  if len =? 3
  then N.testbit (te_dty p e) (word_of off) && N.testbit (te_dty p e) (word_of_succ off)
  else N.testbit (te_dty p e) (word_of off).

(** arithmetics.py 267-274: OR of the dirty bits, gated by [en] *)
Definition line_dirty (en : bool) (e : N) : bool := en && negb (te_dty p e =? 0).

(** arithmetics.py 276-293: (hit, inval_hit, hit_way) *)
Definition pu_way (addr_tag : N) (ents : N -> N) (acc : bool * bool * N) (i : N)
  : bool * bool * N :=
  let '(h, ih, w) := acc in
  let e := ents i in
  let '(h, w) := if te_val p e && (te_tag p e =? addr_tag) then (true, i) else (h, w) in
  if line_dirty true e && negb (te_val p e) && (te_tag p e =? addr_tag)
  then (h, true, i) else (h, ih, w).
Definition pu_compare (en is_init : bool) (addr_tag : N) (ents : N -> N) : bool * bool * N :=
  if negb is_init && en
  then fold_left (pu_way addr_tag ents) (range (p_assoc p)) (false, false, 0)
  else (false, false, 0).

(** arithmetics.py 295-303 *)
Definition pu_entry (en : bool) (e : N) : N := if en then e else 0.

(** ** UpdateTagArrayUnit (UpdateTagArrayUnit.py 28-66) *)
Inductive tag_cmd := TC_NONE | TC_CLEAR | TC_WR_HIT | TC_WR_REFILL | TC_RD_REFILL
                   | TC_INV | TC_FLUSH. (* cache_constants.py 35-41 *)

(** set the dirty bit(s) of the written word (lines 39-44 and 52-57) *)
Definition set_dirty (d off len : N) : N :=
  let d1 := N.setbit d (word_of off) in
  if len =? 3 then N.setbit d1 (word_of_succ off) else d1.

(** (val, dty, tag) of the new entry; [old] is [old_entries[way]] *)
Definition update_tag (cmd : tag_cmd) (old off len refill_dty : N) : bool * N * N :=
  match cmd with
  | TC_WR_REFILL => (true, set_dirty refill_dty off len, te_tag p old)
  | TC_RD_REFILL => (true, refill_dty, te_tag p old)
  | TC_WR_HIT    => (te_val p old, set_dirty (te_dty p old) off len, te_tag p old)
  | TC_CLEAR     => (false, 0, 0)
  | TC_INV       => (false, te_dty p old, te_tag p old)
  | TC_NONE | TC_FLUSH => (te_val p old, te_dty p old, te_tag p old)
  end.

(** ** ReplacementPolicy (ReplacementPolicy.py 35-49); 1-bit way pointers *)
Definition not1 (w : N) : N := 1 - w.
Definition repl_policy (en is_hit : bool) (hit_ptr ptr : N) : N :=
  if p_assoc p =? 2
  then if en then (if is_hit then not1 hit_ptr else not1 ptr) else ptr
  else 0.

(** ** FastDataSelectMux (muxes.py 110-196) *)

(** muxes.py 115-129: select the [bw]-bit group containing the offset *)
Definition fast_sub (bw x off : N) : N :=
  let sel := slice off (clog2 bw - 3) (offw p) in
  slice x (sel * bw) (sel * bw + bw).

(** muxes.py 156-161 *)
Definition fast_nmuxes : N :=
  if p_dbw p <? p_clw p then clog2 (p_dbw p) - 2 else clog2 (p_dbw p) - 3.

(** muxes.py 169, 182-195 *)
Definition dsel_ninputs : N := clog2 (p_dbw p).
Definition dsel_sel (en amo : bool) (len : N) : N :=
  if amo then 1
  else if negb en then 0
  else if len =? 0 then dsel_ninputs - 1
  else fold_left (fun sel i => if len =? 2 ^ i then i + 2 else sel)
                 (range (dsel_ninputs - 3)) 0.

(** muxes.py 163-180, 196 *)
Definition fast_select (en amo : bool) (len off x : N) : N :=
  let sel := dsel_sel en amo len in
  if sel =? 0 then 0
  else if sel =? 1 then slice x 0 32
  else if sel - 2 <? fast_nmuxes then trunc (p_dbw p) (fast_sub (2 ^ (3 + (sel - 2))) x off)
  else slice x 0 (p_dbw p).

End Units.

(** ** SRAM (sram/SramGenericPRTL.py 33-62 behind sram/SramPRTL.py 46-59)
    One synchronous port.  State: array and output register. *)
Definition sram_wr (ram : N -> N) (val wr : bool) (idx wdata wben : N) : N -> N :=
  if val && wr then upd ram idx (mwrite (ram idx) wdata wben) else ram.
Definition sram_rd (ram : N -> N) (dout : N) (val wr : bool) (idx : N) : N :=
  if val && negb wr then ram idx else dout.
