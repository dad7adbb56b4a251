(** Units that the cache instantiates indirectly or not at all: the chained data
    select mux, the counters, the bit-level SRAM and the bit layout of messages. *)
From Coq Require Import NArith ZArith List Bool Lia.
From Verif Require Import Bits Params Msg Units.
Import ListNotations.
Open Scope N_scope.

(** ** SubInputMux (muxes.py 14-32): one of the two low [bw]-bit halves,
    zero extended. *)
Definition sub_input (bw x : N) (sel : bool) : N := if sel then slice x bw (bw + bw) else slice x 0 bw.

Section Mux.
Variable p : params.
(** muxes.py 64: number of 2-to-1 muxes in the chain *)
Definition chain_nmuxes : N := clog2 (p_clw p / 8).
(** muxes.py 66-79: [chain_out k] is the output of the mux [k] places after the
    one fed by [in_], i.e. of [sub[nmuxes-1-k]].  The select lambdas of line 79
    are connected one per value of [i]. *)
Fixpoint chain_out (en : bool) (off x : N) (k : nat) : N :=
  match k with
  | O => sub_input (2 ^ (3 + (chain_nmuxes - 1))) x (en && N.testbit off (chain_nmuxes - 1))
  | S k' => let i := chain_nmuxes - 1 - N.of_nat k in
            sub_input (2 ^ (3 + i)) (chain_out en off x k') (en && N.testbit off i)
  end.
(** output of [sub[i]] *)
Definition chain_sub (en : bool) (off x i : N) : N := chain_out en off x (N.to_nat (chain_nmuxes - 1 - i)).
(** muxes.py 81-105; the output mux select is the same code as in
    FastDataSelectMux ([dsel_sel]) *)
Definition chain_select (en amo : bool) (len off x : N) : N :=
  let sel := dsel_sel p en amo len in
  if sel =? 0 then 0
  else if sel =? 1 then slice x 0 (p_dbw p)
  else if sel - 2 <? chain_nmuxes then trunc (p_dbw p) (chain_sub en off x (sel - 2))
  else slice x 0 (p_dbw p).
End Mux.

(** ** CounterEnRst (counters.py 14-32).  The [load] and [load_value] ports exist
    but no statement reads them. *)
Record ctr_in := mkCtr { ci_reset : bool; ci_en : bool; ci_load : bool; ci_down : bool; ci_ldval : N }.
Definition ctr_step (w rv : N) (out : N) (i : ctr_in) : N :=
  if ci_reset i then trunc w rv
  else if ci_en i then (if ci_down i then trunc w (out + (2 ^ w - 1)) else trunc w (out + 1))
  else out.
(** ** CounterUpDown (counters.py 38-65), with the reset register behind it
    (pymtl3 RegRst). *)
Record ud_in := mkUd { ui_reset : bool; ui_up : bool; ui_upa : N; ui_dw : bool; ui_dwa : N; ui_ld : bool; ui_lda : N }.
Definition ud_step (w rv : N) (out : N) (i : ud_in) : N :=
  if ui_reset i then trunc w rv
  else if ui_ld i then trunc w (ui_lda i)
  else if ui_up i && negb (ui_dw i) then trunc w (out + ui_upa i)
  else if negb (ui_up i) && ui_dw i then trunc w (out + (2 ^ w - trunc w (ui_dwa i)))
  else out.

(** ** SRAM, bit by bit *)
Record sram_st := mkSr { sr_ram : N -> N; sr_dout : N }.
(** port of SramPRTL (SramPRTL.py 34-40); [so_type] is true for a write *)
Record sram_op := mkSo { so_val : bool; so_type : bool; so_idx : N; so_wdata : N; so_wben : N }.
Definition put_bit (x i : N) (b : bool) : N := if b then N.setbit x i else N.clearbit x i.
(** SramGenericPRTL.py 44-64; inputs are the active-low CSB1 and WEB1, A1, I1,
    WBM1.  OEB1 is tied low (SramPRTL.py 55) so O1 is [dout]. *)
Definition generic_step (nb : N) (csb web : bool) (a1 i1 wbm : N) (s : sram_st) : sram_st :=
  mkSr (fold_left (fun ram i => if negb csb && negb web && N.testbit wbm i
                                then upd ram a1 (put_bit (ram a1) i (N.testbit i1 i)) else ram)
                  (range nb) (sr_ram s))
       (if negb csb && web then sr_ram s a1 else sr_dout s).
(** SramPRTL.py 42-59: inverters *)
Definition sram_step (nb : N) (s : sram_st) (o : sram_op) : sram_st :=
  generic_step nb (negb (so_val o)) (negb (so_type o)) (so_idx o) (so_wdata o) (so_wben o) s.
Definition sram_run (nb : N) (s : sram_st) (ops : list sram_op) : sram_st := fold_left (sram_step nb) ops s.
(** SramPRTL.py 39, 60: what the output port shows *)
Definition sram_out (s : sram_st) : N := sr_dout s.

(** The behavioural branch of sram/brg_gf14_sram_generic_synopsys.v (53-80), which
    replaces SramGenericPRTL in synthesis flows: as above, but the output register
    is cleared in every cycle without a read. *)
Definition vgeneric_step (nb : N) (csb web : bool) (a1 i1 wbm : N) (s : sram_st) : sram_st :=
  mkSr (if negb csb && negb web then
          fold_left (fun ram i => if negb csb && negb web && N.testbit wbm i
                                  then upd ram a1 (put_bit (ram a1) i (N.testbit i1 i)) else ram)
                    (range nb) (sr_ram s)
        else sr_ram s)
       (if negb csb && web then sr_ram s a1 else 0).
Definition vsram_step (nb : N) (s : sram_st) (o : sram_op) : sram_st :=
  vgeneric_step nb (negb (so_val o)) (negb (so_type o)) (so_idx o) (so_wdata o) (so_wben o) s.
Definition vsram_run (nb : N) (s : sram_st) (ops : list sram_op) : sram_st := fold_left (vsram_step nb) ops s.

(** ** Bit layout of pymtl3 bitstructs ([mk_bitstruct]): fields concatenated, the
    first field in the most significant bits. *)
Definition wsum (ws : list N) : N := fold_right N.add 0 ws.
Fixpoint pack (fs : list (N * N)) : N :=   (* (width, value) *)
  match fs with [] => 0 | (w, v) :: r => cat v (wsum (map fst r)) (pack r) end.
Fixpoint unpack (ws : list N) (x : N) : list N :=
  match ws with [] => [] | w :: r => slice x (wsum r) (wsum r + w) :: unpack r x end.
(** Field widths: mk_mem_req_msg (MemMsg.py 82-134) and mk_mem_resp_msg
    (MemMsg.py 142-190), with and without the write mask. *)
Definition req_ws (opq addr data : N) (mask : bool) : list N :=
  [4; opq; addr; clog2 (N.shiftr data 3)] ++ (if mask then [N.shiftr data 5] else []) ++ [data].
Definition resp_ws (opq data : N) (mask : bool) : list N :=
  [4; opq; 2; clog2 (N.shiftr data 3)] ++ (if mask then [N.shiftr data 5] else []) ++ [data].
(** cache request and response and memory request as bits (BlockingCacheRTL.py:
    CacheReqType = no mask, MemReqType = mask) *)
Definition creq_vals (r : creq) : list N := [cq_type r; cq_opq r; cq_addr r; cq_len r; cq_data r].
Definition cresp_vals (r : cresp) : list N := [cr_type r; cr_opq r; cr_test r; cr_len r; cr_data r].
Definition mreq_vals (q : mreq) : list N := [mq_type q; mq_opq q; mq_addr q; mq_len q; mq_mask q; mq_data q].
Definition creq_of (l : list N) : creq :=
  match l with [t; o; a; n; d] => mkCReq t o a n d | _ => creq0 end.
Definition cresp_of (l : list N) : cresp :=
  match l with [t; o; a; n; d] => mkCResp t o a n d | _ => mkCResp 0 0 0 0 0 end.
Definition mreq_of (l : list N) : mreq :=
  match l with [t; o; a; n; m; d] => mkMReq t o a n m d | _ => mkMReq 0 0 0 0 0 0 end.
Definition creq_bits (opq addr data : N) (r : creq) : N := pack (combine (req_ws opq addr data false) (creq_vals r)).
Definition cresp_bits (opq data : N) (r : cresp) : N := pack (combine (resp_ws opq data false) (cresp_vals r)).
Definition mreq_bits (opq addr data : N) (q : mreq) : N := pack (combine (req_ws opq addr data true) (mreq_vals q)).
Definition bits_creq (opq addr data x : N) : creq := creq_of (unpack (req_ws opq addr data false) x).
Definition bits_cresp (opq data x : N) : cresp := cresp_of (unpack (resp_ws opq data false) x).
Definition bits_mreq (opq addr data x : N) : mreq := mreq_of (unpack (req_ws opq addr data true) x).

(** Two-letter names of line traces (MemMsg.py 38-55); index = type code. *)
From Coq Require Import String.
Definition type_str : list string :=
  ["rd"; "wr"; "in"; "ad"; "an"; "or"; "sw"; "mi"; "mu"; "mx"; "xu"; "xo"; "lr"; "sc"; "iv"; "fl"]%string.
