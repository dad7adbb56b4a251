(** C20-C25, C36, C37, C39: single units, geometry, encodings. *)
From Coq Require Import NArith ZArith List Bool Lia String.
From Verif Require Import Bits Params Msg Units Units2 Rtl Mem Spec System ParamsProofs UnitProofs Units2Proofs Facts5 Harness.
Import ListNotations.
Open Scope N_scope.

(** C20.  [size_ok p len n]: [len] encodes an access of [n] bytes; [vbyte x j] is
    byte [j] of [x].  Writing the replicated data with the generated bit enables
    changes exactly bytes [off .. off+n-1] of the addressed row. *)
Theorem C20_subword_write : forall p len n off ram row x, wf_params p ->
  size_ok p len n -> off mod n = 0 -> off < 2 ^ offw p ->
  let ram' := sram_wr ram true true row (replicator p false len x) (wben_req p off len) in
  (forall j, vbyte (ram' row) j = if (off <=? j) && (j <? off + n) then vbyte x (j - off) else vbyte (ram row) j) /\
  (forall row', row' <> row -> ram' row' = ram row').
Proof. exact (fun p len n off ram row x W => write_bytes p W len n off ram row x). Qed.
Print Assumptions C20_subword_write.

Example C20_example : size_ok px 2 2 /\ 6 mod 2 = 0 /\ 6 < 2 ^ offw px /\
  sram_wr (fun _ => 0xffeeddccbbaa99887766554433221100) true true 1 (replicator px false 2 0x1234ABCD) (wben_req px 6 2) 1
  = 0xffeeddccbbaa9988ABCD554433221100 /\
  sram_wr (fun _ => 0xffeeddccbbaa99887766554433221100) true true 1 (replicator px64 false 0 0x0123456789ABCDEF) (wben_req px64 8 0) 1
  = 0x0123456789ABCDEF7766554433221100.
Proof.
  split; [|vm_compute; auto]. split; [right; left; reflexivity|]. split; [vm_compute; discriminate|].
  left. split; [reflexivity | vm_compute; discriminate].
Qed.

(** C21. *)
Theorem C21_subword_read : forall p len n off x, wf_params p -> size_ok p len n -> off mod n = 0 -> off < 2 ^ offw p ->
  forall j, vbyte (fast_select p true false len off x) j = if j <? n then vbyte x (off + j) else 0.
Proof. exact (fun p len n off x W => read_bytes p W len n off x). Qed.
Print Assumptions C21_subword_read.
Theorem C21_no_data : forall p len off x, fast_select p false false len off x = 0.
Proof. exact read_off. Qed.
Print Assumptions C21_no_data.
Theorem C21_amo_word : forall p en len off x, fast_select p en true len off x = slice x 0 32.
Proof. exact read_amo. Qed.
Print Assumptions C21_amo_word.
Example C21_example :
  fast_select px true false 1 5 0xffeeddccbbaa99887766554433221100 = 0x55 /\
  fast_select px true false 2 14 0xffeeddccbbaa99887766554433221100 = 0xffee /\
  fast_select px true false 0 4 0xffeeddccbbaa99887766554433221100 = 0x77665544 /\
  fast_select px64 true false 0 8 0xffeeddccbbaa99887766554433221100 = 0xffeeddccbbaa9988.
Proof. vm_compute. auto. Qed.

(** C22.  For READ/WRITE responses the two muxes agree at every offset (aligned
    or not) and every len code; on AMO responses they agree exactly when the data
    above bit 32 is 0. *)
Theorem C22_muxes_agree : forall p en len off x, wf_params p -> off < 2 ^ offw p ->
  chain_select p en false len off x = fast_select p en false len off x.
Proof. exact (fun p en len off x W => chain_fast p W en len off x). Qed.
Print Assumptions C22_muxes_agree.
Theorem C22_amo_difference : forall p en len off x, wf_params p ->
  (chain_select p en true len off x = fast_select p en true len off x <-> slice x 32 (p_dbw p) = 0).
Proof. exact (fun p en len off x W => chain_amo_agree p W en len off x). Qed.
Print Assumptions C22_amo_difference.
Theorem C22_amo_agree_refuted : exists p en len off x, wf_params p /\
  chain_select p en true len off x <> fast_select p en true len off x.
Proof. exists px64, false, 4, 0, (2 ^ 32). split; [exact px64_wf | vm_compute; discriminate]. Qed.
Print Assumptions C22_amo_agree_refuted.
Example C22_example :
  chain_select px true false 1 5 0xffeeddccbbaa99887766554433221100 = 0x55 /\
  chain_select px true false 2 14 0xffeeddccbbaa99887766554433221100 = 0xffee /\
  chain_select px64 true false 4 4 0xffeeddccbbaa99887766554433221100 = 0x77665544.
Proof. vm_compute. auto. Qed.

(** C23. *)
Theorem C23_address_lossless : forall p a, wf_params p -> a < 2 ^ p_abw p ->
  mk_addr p (a_tag p a) (a_idx p a) (a_off p a) = a /\
  a_tag p a < 2 ^ tagw p /\ a_idx p a < nblocks p /\ a_off p a < 2 ^ offw p.
Proof. exact (fun p a W H => conj (mk_addr_parts p W a H) (conj (a_tag_lt p a) (conj (a_idx_lt p W a) (a_off_lt p a)))). Qed.
Print Assumptions C23_address_lossless.
Theorem C23_address_fields : forall p t i o, wf_params p -> t < 2 ^ tagw p -> i < 2 ^ idxw p -> o < 2 ^ offw p ->
  a_tag p (mk_addr p t i o) = t /\ a_idx p (mk_addr p t i o) = i /\ a_off p (mk_addr p t i o) = o.
Proof. exact (fun p t i o _ T I O => conj (a_tag_mk p t i o T I) (conj (a_idx_mk p t i o I) (a_off_mk p t i o O))). Qed.
Print Assumptions C23_address_fields.
Theorem C23_rows_distinct : forall p i w i' w', wf_params p -> i < nblocks p -> w < p_assoc p -> i' < nblocks p -> w' < p_assoc p ->
  indexer p i w = indexer p i' w' -> i = i' /\ w = w'.
Proof. exact (fun p i w i' w' W => indexer_inj p W i w i' w'). Qed.
Print Assumptions C23_rows_distinct.
Theorem C23_rows_all_used : forall p row, wf_params p -> row < total_lines p ->
  exists i w, i < nblocks p /\ w < p_assoc p /\ indexer p i w = row.
Proof. exact (fun p row W => row_onto p W row). Qed.
Print Assumptions C23_rows_all_used.
(** the line counter value [k] stands for way [k mod assoc] and the set in its
    upper bits (Ctrl 305-307, 403-424) *)
Theorem C23_counter_enumerates : forall p w i, wf_params p -> w < p_assoc p -> i < nblocks p ->
  exists k, k < total_lines p /\ (k mod p_assoc p = w /\ slice k (clog_asso p) (bw_lines p) = i) /\
  forall k', k' < total_lines p -> k' mod p_assoc p = w -> slice k' (clog_asso p) (bw_lines p) = i -> k' = k.
Proof. exact (fun p w i W => line_enum p W w i). Qed.
Print Assumptions C23_counter_enumerates.
Example C23_example : wf_params px /\ a_tag px 0xABCD = 0x55E /\ a_idx px 0xABCD = 0 /\ a_off px 0xABCD = 0xD /\
  map (fun iw => indexer px (fst iw) (snd iw)) [(0,0); (1,0); (0,1); (1,1)] = [0; 1; 2; 3].
Proof. split; [exact px_wf | vm_compute; auto]. Qed.

(** C24. *)
Theorem C24_parameters : forall p, wf_params p ->
  p_abw p = offw p + idxw p + tagw p /\ 1 <= tagw p /\
  total_lines p = 2 ^ idxw p * p_assoc p /\ total_lines p * p_clw p = 8 * p_num_bytes p /\
  p_clw p = 8 * 2 ^ offw p /\ p_clw p = 32 * dtyw p /\ 2 ^ bw_lines p = total_lines p /\
  wbenw p = p_clw p /\ tagarrw p = 1 + dtyw p + tagw p.
Proof. exact params_ok. Qed.
Print Assumptions C24_parameters.
Example C24_example : wf_params px /\ wf_params px1 /\ wf_params px64 /\
  (offw px, idxw px, tagw px, total_lines px, dtyw px) = (4, 1, 11, 4, 4).
Proof. split; [exact px_wf|split; [exact px1_wf|split; [exact px64_wf|vm_compute; auto]]]. Qed.

(** C25.  [wr_op k b o]: operation [o] writes bit [b] of word [k]; [rd_op o]: [o]
    is a read. *)
Theorem C25_last_write : forall nb s ops k b, b < nb ->
  N.testbit (sr_ram (sram_run nb s ops) k) b =
  match find (wr_op k b) (rev ops) with Some o => N.testbit (so_wdata o) b | None => N.testbit (sr_ram s k) b end.
Proof. exact sram_last_write. Qed.
Print Assumptions C25_last_write.
Theorem C25_read_and_hold : forall nb s pre o post, rd_op o = true -> forallb (fun o => negb (rd_op o)) post = true ->
  sram_out (sram_run nb s (pre ++ o :: post)) = sr_ram (sram_run nb s pre) (so_idx o).
Proof. exact sram_read. Qed.
Print Assumptions C25_read_and_hold.
Theorem C25_width : forall nb s ops, (forall k, sr_ram s k < 2 ^ nb) -> forall k, sr_ram (sram_run nb s ops) k < 2 ^ nb.
Proof. exact sram_width. Qed.
Print Assumptions C25_width.
(** The word-level SRAM inside the cache model is this one. *)
Theorem C25_cache_sram : forall nb s o, so_wben o < 2 ^ nb ->
  (forall k, sr_ram (sram_step nb s o) k = sram_wr (sr_ram s) (so_val o) (so_type o) (so_idx o) (so_wdata o) (so_wben o) k) /\
  sr_dout (sram_step nb s o) = sram_rd (sr_ram s) (sr_dout s) (so_val o) (so_type o) (so_idx o).
Proof. exact sram_word. Qed.
Print Assumptions C25_cache_sram.
(** The Verilog substitute has the same contents, and the same output in the
    cycle after a read; in other cycles its output is 0 instead of the held value. *)
Theorem C25_verilog_contents : forall nb s ops k, sr_ram (vsram_run nb s ops) k = sr_ram (sram_run nb s ops) k.
Proof. exact vsram_ram. Qed.
Print Assumptions C25_verilog_contents.
Theorem C25_verilog_output : forall nb s ops o,
  sram_out (vsram_run nb s (ops ++ [o])) = if rd_op o then sram_out (sram_run nb s (ops ++ [o])) else 0.
Proof. exact vsram_out. Qed.
Print Assumptions C25_verilog_output.
Theorem C25_verilog_hold_refuted : exists nb s pre o post, rd_op o = true /\ forallb (fun o => negb (rd_op o)) post = true /\
  sram_out (vsram_run nb s (pre ++ o :: post)) <> sr_ram (vsram_run nb s pre) (so_idx o).
Proof.
  exists 8, (mkSr (fun _ => 7) 0), [], (mkSo true false 3 0 0), [mkSo false false 0 0 0]. vm_compute. repeat split; discriminate.
Qed.
Print Assumptions C25_verilog_hold_refuted.
Example C25_example : sram_out (sram_run 8 (mkSr (fun _ => 0xF0) 0)
  [mkSo true true 3 0x55 0x0F; mkSo true true 2 0 0xFF; mkSo true false 3 0 0; mkSo true true 3 0xFF 0xFF; mkSo false true 3 0 0xFF]) = 0xF5.
Proof. vm_compute. auto. Qed.

(** C36.  Field values to bits and back, for tag entries and messages. *)
Theorem C36_tag_entry : forall p v d t, wf_params p -> d < 2 ^ dtyw p -> t < 2 ^ tagw p ->
  te_val p (mk_te p v d t) = v /\ te_dty p (mk_te p v d t) = d /\ te_tag p (mk_te p v d t) = t /\
  mk_te p v d t < 2 ^ tagarrw p.
Proof. exact (fun p v d t _ => te_roundtrip p v d t). Qed.
Print Assumptions C36_tag_entry.
Theorem C36_tag_entry_bits : forall p e, wf_params p -> e < 2 ^ tagarrw p -> mk_te p (te_val p e) (te_dty p e) (te_tag p e) = e.
Proof. exact (fun p e _ => te_unpack p e). Qed.
Print Assumptions C36_tag_entry_bits.
Theorem C36_request : forall opq addr data r,
  cq_type r < 16 -> cq_opq r < 2 ^ opq -> cq_addr r < 2 ^ addr -> cq_len r < 2 ^ clog2 (data / 8) -> cq_data r < 2 ^ data ->
  bits_creq opq addr data (creq_bits opq addr data r) = r /\
  creq_bits opq addr data r < 2 ^ (4 + opq + addr + clog2 (data / 8) + data).
Proof. exact creq_roundtrip. Qed.
Print Assumptions C36_request.
Theorem C36_request_bits : forall opq addr data x, x < 2 ^ (4 + opq + addr + clog2 (data / 8) + data) ->
  creq_bits opq addr data (bits_creq opq addr data x) = x.
Proof. exact creq_unpack. Qed.
Print Assumptions C36_request_bits.
Theorem C36_response : forall opq data r,
  cr_type r < 16 -> cr_opq r < 2 ^ opq -> cr_test r < 4 -> cr_len r < 2 ^ clog2 (data / 8) -> cr_data r < 2 ^ data ->
  bits_cresp opq data (cresp_bits opq data r) = r.
Proof. exact cresp_roundtrip. Qed.
Print Assumptions C36_response.
Theorem C36_response_bits : forall opq data x, x < 2 ^ (4 + opq + 2 + clog2 (data / 8) + data) ->
  cresp_bits opq data (bits_cresp opq data x) = x.
Proof. exact cresp_unpack. Qed.
Print Assumptions C36_response_bits.
Theorem C36_memory_request : forall opq addr data q,
  mq_type q < 16 -> mq_opq q < 2 ^ opq -> mq_addr q < 2 ^ addr -> mq_len q < 2 ^ clog2 (data / 8) ->
  mq_mask q < 2 ^ (data / 32) -> mq_data q < 2 ^ data ->
  bits_mreq opq addr data (mreq_bits opq addr data q) = q.
Proof. exact mreq_roundtrip. Qed.
Print Assumptions C36_memory_request.
Theorem C36_memory_request_bits : forall opq addr data x, x < 2 ^ (4 + opq + addr + clog2 (data / 8) + data / 32 + data) ->
  mreq_bits opq addr data (bits_mreq opq addr data x) = x.
Proof. exact mreq_unpack. Qed.
Print Assumptions C36_memory_request_bits.
Theorem C36_type_codes :
  [T_READ; T_WRITE; T_INIT; T_AMO_ADD; T_AMO_AND; T_AMO_OR; T_AMO_SWAP; T_AMO_MIN; T_AMO_MINU; T_AMO_MAX; T_AMO_MAXU;
   T_AMO_XOR; T_LR; T_SC; T_INV; T_FLUSH] = range 16 /\ NoDup type_str /\ List.length type_str = 16%nat.
Proof. exact type_codes. Qed.
Print Assumptions C36_type_codes.
Example C36_example : creq_bits 8 16 32 (mkCReq T_WRITE 0xAB 0x1234 2 0xDEADBEEF) = 0x6AC48D2DEADBEEF /\
  bits_creq 8 16 32 0x6AC48D2DEADBEEF = mkCReq T_WRITE 0xAB 0x1234 2 0xDEADBEEF.
Proof. vm_compute. auto. Qed.

(** C37.  In the data array, in the dirty bits, and in memory after a FLUSH. *)
Theorem C37_double_word_write : forall p off ram row x, wf_params p -> p_dbw p = 32 -> off mod 8 = 0 -> off < 2 ^ offw p ->
  let ram' := sram_wr ram true true row (replicator p false 3 x) (wben_req p off 3) in
  (forall j, vbyte (ram' row) j =
     if (off <=? j) && (j <? off + 4) then vbyte x (j - off)
     else if (off <=? j) && (j <? off + 8) then 0 else vbyte (ram row) j) /\
  (forall row', row' <> row -> ram' row' = ram row').
Proof. exact (fun p off ram row x W => double_bytes p W off ram row x). Qed.
Print Assumptions C37_double_word_write.
Theorem C37_both_words_dirty : forall p d off k, wf_params p -> off mod 8 = 0 -> off < 2 ^ offw p ->
  N.testbit (set_dirty p d off 3) k = N.testbit d k || (k =? off / 4) || (k =? off / 4 + 1).
Proof. exact (fun p d off k W => double_dirty p W d off k). Qed.
Print Assumptions C37_both_words_dirty.
(** [touches p b x]: request [b] may write byte [x]. *)
Theorem C37_both_words_in_memory : forall p s0 is i m0 m rq rs y A r B f, wf_params p -> sys_run p s0 (is ++ [i]) m0 m rq rs ->
  let tr := trace_of p s0 (is ++ [i]) in
  o_resp (output p (fst (run p s0 is)) i) = Some y ->
  firstn (List.length (responses tr)) (accepted tr) = A ++ r :: B ++ [f] -> cq_type f = T_FLUSH ->
  p_dbw p = 32 -> cq_type r = T_WRITE -> cq_len r = 3 -> cq_addr r + 8 <= 2 ^ p_abw p ->
  (forall b x, In b B -> cq_addr r <= x < cq_addr r + 8 -> ~ touches p b x) ->
  rd_bytes m (cq_addr r) 4 = trunc 32 (cq_data r) /\ rd_bytes m (cq_addr r + 4) 4 = 0.
Proof. exact (fun p s0 is i m0 m rq rs y A r B f W => flush_double p W s0 is i m0 m rq rs y A r B f). Qed.
Print Assumptions C37_both_words_in_memory.
Definition prog_d : list creq := [rd 1 0x18 0; mkCReq T_WRITE 2 0x18 3 0xDEADBEEF; rd 3 0x1C 0; mkCReq T_FLUSH 4 0 0 0].
Example C37_example : exists is i m rq rs y A r B f, sys_run px (s0_a px) (is ++ [i]) mem_a m rq rs /\
  o_resp (output px (fst (run px (s0_a px) is)) i) = Some y /\
  firstn (List.length (responses (trace_of px (s0_a px) (is ++ [i])))) (accepted (trace_of px (s0_a px) (is ++ [i]))) = A ++ r :: B ++ [f] /\
  cq_type f = T_FLUSH /\ cq_type r = T_WRITE /\ cq_len r = 3 /\ List.length B = 1%nat /\
  rd_bytes m 0x18 8 = 0xDEADBEEF /\ rd_bytes mem_a 0x18 8 <> 0xDEADBEEF.
Proof.
  set (n := 29%nat).
  set (is0 := is_a px prog_d (lively n 0)).
  assert (E : exists is i, is0 = is ++ [i] /\
    exists y A r B f, o_resp (output px (fst (run px (s0_a px) is)) i) = Some y /\
    firstn (List.length (responses (trace_of px (s0_a px) is0))) (accepted (trace_of px (s0_a px) is0)) = A ++ r :: B ++ [f] /\
    cq_type f = T_FLUSH /\ cq_type r = T_WRITE /\ cq_len r = 3 /\ List.length B = 1%nat).
  { exists (removelast is0), (last is0 (mkInp false creq0 false false false mresp0)). split; [vm_compute; reflexivity|].
    eexists _, [rd 1 0x18 0], _, [rd 3 0x1C 0], _. split; [vm_compute; reflexivity|]. vm_compute. auto. }
  destruct E as (is & i & E & y & A & r & B & f & H1 & H2 & H3 & H4 & H5 & H6).
  exists is, i, (fst (end_a px prog_d (lively n 0))), [], (snd (end_a px prog_d (lively n 0))), y, A, r, B, f.
  rewrite <- E. split; [apply run_a, wf_all; reflexivity|]. repeat (split; [assumption|]).
  split; [vm_compute; reflexivity | vm_compute; discriminate].
Qed.

(** C39. *)
Theorem C39_counter : forall w rv is out, out < 2 ^ w -> Forall (fun i => ci_reset i = false) is ->
  Z.of_N (fold_left (ctr_step w rv) is out) = ((Z.of_N out + zsum (map ctr_delta is)) mod 2 ^ Z.of_N w)%Z.
Proof. exact ctr_run. Qed.
Print Assumptions C39_counter.
Theorem C39_down_counter : forall w rv is, Forall (fun i => ci_reset i = false /\ (ci_en i = true -> ci_down i = true)) is ->
  let k := N.of_nat (List.length (filter ci_en is)) in
  fold_left (ctr_step w rv) is (2 ^ w - 1) = 2 ^ w - 1 - k mod 2 ^ w.
Proof. exact ctr_down. Qed.
Print Assumptions C39_down_counter.
(** the counter inside the cache control is this one *)
Theorem C39_cache_counter : forall p s rv ld v, ctr_dec p s = ctr_step (bw_lines p) rv (ctr s) (mkCtr false true ld true v).
Proof. exact (fun p s rv ld v => eq_refl). Qed.
Print Assumptions C39_cache_counter.
(** [ud_eff i x]: load, or add the up amount, or subtract the down amount, or
    (both or neither requested) keep, on unbounded integers. *)
Theorem C39_up_down_counter : forall w rv is out, out < 2 ^ w -> Forall (fun i => ui_reset i = false) is ->
  Z.of_N (fold_left (ud_step w rv) is out) = (fold_left (fun x i => ud_eff i x) is (Z.of_N out) mod 2 ^ Z.of_N w)%Z.
Proof. exact ud_run. Qed.
Print Assumptions C39_up_down_counter.
(** CounterEnRst has [load] and [load_value] ports, but they do nothing: the claim
    "load sets the counter" fails. *)
Theorem C39_load_refuted : exists w rv out v, v < 2 ^ w /\ out < 2 ^ w /\
  ctr_step w rv out (mkCtr false false true false v) <> v.
Proof. exists 2, 0, 1, 3. vm_compute. repeat split; discriminate. Qed.
Print Assumptions C39_load_refuted.
Example C39_example : map (fun k => fold_left (ctr_step 2 0) (repeat (mkCtr false true false true 0) k) 3) [0; 1; 2; 3; 4; 5]%nat
  = [3; 2; 1; 0; 3; 2] /\ fold_left (ud_step 3 0) [mkUd false true 5 false 1 false 0; mkUd false true 5 true 1 false 0;
     mkUd false false 0 true 6 false 0] 2 = 1.
Proof. vm_compute. auto. Qed.
