(** C66: what the arrays contain at power-up never shows. *)
From Coq Require Import NArith List Bool Lia.
From Verif Require Import Bits Params Msg Units Rtl Mem Spec System Hide Tl ParamsProofs SramJunk Obliv.
Import ListNotations.
Open Scope N_scope.

Section O.
Variable p : params.
Hypothesis W : wf_params p.

(** Two states that differ at most in data and in tag rows not yet initialised: the data array, its outputs, and the
    data fields of messages held in registers. *)
Record pow_eq (s s' : st) : Prop := mkPow {
  pe_fsm : fsm s' = fsm s; pe_ctr : ctr s' = ctr s; pe_mrv : mrv s' = mrv s;
  pe_mrm : mr_type (mrm s') = mr_type (mrm s);
  pe_msn : msn s' = msn s; pe_msq : hide_creq (ms_req (msr s')) = hide_creq (ms_req (msr s));
  pe_msw : ms_repl (msr s') = ms_repl (msr s); pe_msa : ms_amo_hit (msr s') = ms_amo_hit (msr s);
  pe_msd : ms_dirty (msr s') = ms_dirty (msr s);
  pe_t1 : t1 s' = t1 s; pe_wp1 : wp1 s' = wp1 s; pe_utw1 : utw1 s' = utw1 s;
  pe_q1 : hide_creq (q1 s') = hide_creq (q1 s); pe_fi1 : fi1 s' = fi1 s; pe_dm1 : dm1 s' = dm1 s;
  pe_rep : forall k, rep s' k = rep s k;
  pe_tram : forall w k, tram s' w k = tram s w k \/ fsm s = F_INIT /\ ctr s < 2 ^ bw_lines p /\ tram s w k < 2 ^ tagarrw p /\ tram s' w k < 2 ^ tagarrw p /\
     exists n, n <= ctr s /\ w = lway p n /\ k = lidx p n;
  pe_tdout : forall w, tdout s' w = tdout s w; pe_tsr : forall w, tsr s' w = tsr s w; pe_hsr : hsr s' = hsr s; pe_wst : wst s' = wst s;
  pe_t2 : t2 s' = t2 s; pe_ev2 : ev2 s' = ev2 s; pe_hit2 : hit2 s' = hit2 s; pe_fs2 : fs2 s' = fs2 s;
  pe_q2 : hide_creq (q2 s') = hide_creq (q2 s); pe_wm2 : wm2 s' = wm2 s
}.


Section One.
Variables (s s' : st) (i i' : inp).
Hypothesis C : pow_eq s s'.
Hypothesis I : hide_in i' = hide_in i.

Lemma in_eq : i_req_en i' = i_req_en i /\ i_resp_rdy i' = i_resp_rdy i /\ i_mreq_rdy i' = i_mreq_rdy i /\
  i_mresp_en i' = i_mresp_en i /\ hide_creq (i_req i') = hide_creq (i_req i) /\ mr_type (i_mresp i') = mr_type (i_mresp i).
Proof. unfold hide_in in I. inversion I. repeat split; auto. unfold hide_creq. congruence. Qed.

Lemma w_tagq : forall w, tagq s' w = tagq s w.
Proof. intros. destruct C. unfold tagq. rewrite pe_wst0. destruct (wst s); auto. Qed.
Lemma w_pu : pu p s' = pu p s.
Proof.
  destruct (hide_creq_eq _ _ (pe_q1 _ _ C)) as (_ & _ & QA & _).
  unfold pu, tag_proc_en, is_init1, pu_compare. rewrite (pe_t1 _ _ C), (pe_ev2 _ _ C), QA.
  destruct (negb (trans_eqb (t1 s) TR_INIT_REQ) && _); auto. apply (fold_pu_ext p). apply w_tagq.
Qed.
Lemma w_tpe : tag_proc_en s' = tag_proc_en s.
Proof. destruct C. unfold tag_proc_en. rewrite pe_t3, pe_ev3. auto. Qed.
Lemma w_ld : forall w, pu_ld p s' w = pu_ld p s w.
Proof. intros. unfold pu_ld. rewrite w_tpe, w_tagq. auto. Qed.
Lemma w_ent : forall w, pu_ent s' w = pu_ent s w.
Proof. intros. unfold pu_ent. rewrite w_tpe, w_tagq. auto. Qed.
Lemma w_q1 : cq_type (q1 s') = cq_type (q1 s) /\ cq_opq (q1 s') = cq_opq (q1 s) /\ cq_addr (q1 s') = cq_addr (q1 s) /\ cq_len (q1 s') = cq_len (q1 s).
Proof. apply hide_creq_eq. apply (pe_q1 _ _ C). Qed.
Lemma w_idx1 : idx1 p s' = idx1 p s /\ off1 p s' = off1 p s.
Proof. destruct w_q1 as (_ & _ & A & _). unfold idx1, off1. rewrite A. auto. Qed.
Lemma w_wd : forall w, pu_wd p s' w = pu_wd p s w.
Proof.
  intros. unfold pu_wd. rewrite w_tagq. destruct w_idx1 as [_ ->]. destruct w_q1 as (_ & _ & _ & ->). auto.
Qed.
Lemma w_rep_rd : rep_rd p s' = rep_rd p s.
Proof. unfold rep_rd. destruct w_idx1 as [-> _]. rewrite (pe_rep _ _ C). auto. Qed.
Lemma w_t1 : t1 s' = t1 s. Proof. apply (pe_t1 _ _ C). Qed.
Lemma w_hitq : hitq p s' = hitq p s.
Proof.
  unfold hitq, hsr_en, hsr_in, pu_hit, pu_inval, pu_hit_way. rewrite w_pu, (pe_wst _ _ C), (pe_ev2 _ _ C), (pe_hsr _ _ C). auto.
Qed.
Lemma w_hit1 : hit1 p s' = hit1 p s.
Proof. unfold hit1, is_rwi1, is_amo1, pu_hit. rewrite w_pu, w_t1. auto. Qed.
Lemma w_dty1 : is_dty1 p s' = is_dty1 p s.
Proof.
  unfold is_dty1, is_rwi1, is_amo1, pu_hit_way. rewrite w_hit1, w_pu, w_t1, w_wd, !w_ld, w_rep_rd. auto.
Qed.
Lemma w_ev1 : is_evict1 p s' = is_evict1 p s.
Proof. unfold is_evict1, is_rwi1, is_amo1, pu_inval. rewrite w_dty1, w_hit1, w_pu, w_t1. auto. Qed.
Lemma w_whc : write_hit_clean p s' = write_hit_clean p s.
Proof. unfold write_hit_clean, is_rwi1, pu_inval. rewrite w_dty1, w_hit1, w_pu, w_t1. auto. Qed.
Lemma w_rep : repreq_en1 p s' = repreq_en1 p s /\ rep_wr p s' = rep_wr p s.
Proof.
  unfold rep_wr, repreq_en1, repreq_is_hit1, repreq_hit_ptr1, is_rwi1, is_amo1, is_init1, pu_inval, pu_hit_way.
  rewrite w_ev1, w_hit1, w_pu, w_t1, w_rep_rd. auto.
Qed.
Lemma w_way : way_offset1 p s' = way_offset1 p s.
Proof.
  unfold way_offset1, pu_inval, pu_hit_way.
  rewrite w_t1, w_hit1, w_pu, w_rep_rd, w_hitq, (pe_wp1 _ _ C), (pe_utw1 _ _ C). auto.
Qed.
Lemma w_hfs : has_flush_sent1 p s' = has_flush_sent1 p s.
Proof. unfold has_flush_sent1. rewrite w_t1, (pe_utw1 _ _ C), w_ld. auto. Qed.
Lemma w_nfn : no_flush_needed1 p s' = no_flush_needed1 p s.
Proof. unfold no_flush_needed1. rewrite w_t1, (pe_utw1 _ _ C), w_ld. auto. Qed.
Lemma w_cs1 : cs1 p s' = cs1 p s.
Proof. unfold cs1. rewrite w_t1, w_ev1, w_hit1, w_hfs. auto. Qed.
Lemma w_addr12 : addr1_2 p s' = addr1_2 p s.
Proof.
  unfold addr1_2, cs1_evmux, evict_addr1, ev_idx1, flush_idx_sel1. rewrite w_cs1, w_tagq, w_way, w_t1, (pe_fi1 _ _ C).
  destruct w_idx1 as [-> _]. destruct w_q1 as (_ & _ & -> & _). auto.
Qed.
Lemma w_q12 : hide_creq (q1_2 p s') = hide_creq (q1_2 p s).
Proof.
  destruct w_q1 as (A & B & _ & D). apply hide_creq_mk; cbn [q1_2 cq_type cq_opq cq_addr cq_len]; auto. apply w_addr12.
Qed.
Lemma w_wm : write_mask1 p s' = write_mask1 p s.
Proof. unfold write_mask1. rewrite w_ent, w_way. auto. Qed.
Lemma w_cs2 : cs2 s' i' = cs2 s i.
Proof.
  destruct in_eq as (_ & A & B & _). unfold cs2. rewrite (pe_t2 _ _ C), A, B, (pe_fs2 _ _ C), (pe_ev2 _ _ C), (pe_hit2 _ _ C). auto.
Qed.
Lemma w_os2 : ostall2 s' i' = ostall2 s i.
Proof. unfold ostall2. rewrite w_cs2. auto. Qed.
Lemma w_stall : stall01 p s' i' = stall01 p s i.
Proof. unfold stall01, ostall1. rewrite w_cs1, w_os2. auto. Qed.
Lemma w_mux : mux_sel0 s' = mux_sel0 s.
Proof. unfold mux_sel0. rewrite (pe_fsm _ _ C), (pe_mrv _ _ C). auto. Qed.
Lemma w_rm : hide_creq (req_mux0 s' i') = hide_creq (req_mux0 s i).
Proof.
  unfold req_mux0. rewrite w_mux. destruct (mux_sel0 s); [apply (pe_msq _ _ C)|]. apply in_eq.
Qed.
Lemma w_rm4 : cq_type (req_mux0 s' i') = cq_type (req_mux0 s i) /\ cq_opq (req_mux0 s' i') = cq_opq (req_mux0 s i) /\
  cq_addr (req_mux0 s' i') = cq_addr (req_mux0 s i) /\ cq_len (req_mux0 s' i') = cq_len (req_mux0 s i).
Proof. apply hide_creq_eq, w_rm. Qed.
Lemma w_mt : mshr_type s' = mshr_type s.
Proof. unfold mshr_type. apply (hide_creq_eq _ _ (pe_msq _ _ C)). Qed.
Lemma w_trans0 : trans0 p s' i' = trans0 p s i.
Proof.
  destruct w_rm4 as (A & _). destruct in_eq as (B & _).
  unfold trans0, req_type0, prev_flush_done, mr_ack, mr_val, mshr_empty, flush_refill_bypass.
  rewrite w_whc, w_mt, w_hfs, w_nfn, w_t1, A, B, (pe_fsm _ _ C), (pe_mrv _ _ C), (pe_mrm _ _ C), (pe_msn _ _ C). auto.
Qed.
Lemma w_fsm : fsm_next p s' i' = fsm_next p s i.
Proof.
  destruct w_rm4 as (A & _). destruct in_eq as (B & _).
  unfold fsm_next, req_type0, prev_flush_done, mr_ack, mr_val, mshr_empty, flush_refill_bypass.
  rewrite w_mt, w_hfs, w_nfn, w_t1, A, B, (pe_fsm _ _ C), (pe_mrv _ _ C), (pe_mrm _ _ C), (pe_msn _ _ C), (pe_ctr _ _ C). auto.
Qed.
Lemma w_cs0 : cs0 p s' i' = cs0 p s i.
Proof. unfold cs0. rewrite w_trans0. auto. Qed.
Lemma w_upd : upd_way_idx0 p s' i' = upd_way_idx0 p s i.
Proof. unfold upd_way_idx0. rewrite w_trans0, (pe_ctr _ _ C). auto. Qed.
Lemma w_utw : upd_tag_way0 p s' i' = upd_tag_way0 p s i.
Proof. unfold upd_tag_way0, is_ctr_way0, ctr_way0. rewrite w_trans0, w_upd. auto. Qed.
Lemma w_val0 : forall w, tag_val0 p s' i' w = tag_val0 p s i w.
Proof.
  intros. unfold tag_val0, is_ctr_way0, ctr_way0, pu_hit_way.
  rewrite w_trans0, w_upd, (pe_msw _ _ C), (pe_msa _ _ C), w_rep_rd, w_pu. auto.
Qed.
Lemma w_addr0 : addr0 p s' i' = addr0 p s i /\ len0 p s' i' = len0 p s i.
Proof.
  destruct w_rm4 as (_ & _ & A & B). destruct w_q1 as (_ & _ & D & E).
  unfold addr0, len0, cs0_admux. rewrite w_cs0, A, B, D, E. auto.
Qed.
Lemma w_idx0 : tag_idx0 p s' i' = tag_idx0 p s i.
Proof. unfold tag_idx0, cs0_idxsel, init_idx0. rewrite w_cs0, w_upd. destruct w_addr0 as [-> _]. auto. Qed.
Lemma w_wdata0 : tag_wdata0 p s' i' = tag_wdata0 p s i.
Proof.
  unfold tag_wdata0, tag_tag0, new_entry0, upd_way_mux0, cs0_tagsel, cs0_cmd, pu_hit_way.
  rewrite w_cs0, w_utw, w_pu, w_ent, (pe_msd _ _ C). destruct w_addr0 as [-> ->]. auto.
Qed.
Lemma w_q0 : hide_creq (q0 p s' i') = hide_creq (q0 p s i).
Proof.
  destruct w_rm4 as (A & B & _ & _). destruct w_addr0 as [D E].
  apply hide_creq_mk; cbn [q0 cq_type cq_opq cq_addr cq_len]; auto.
Qed.

Lemma fsm_dec : {fsm s = F_INIT} + {fsm s <> F_INIT}.
Proof. destruct (fsm s); auto; right; discriminate. Qed.
Lemma ldiff_ones : forall x n, x < 2 ^ n -> N.ldiff x (N.ones n) = 0.
Proof. intros. destruct (N.eq_dec x 0) as [-> | Z]; [apply N.ldiff_0_l|]. apply N.ldiff_ones_r_low. apply N.log2_lt_pow2; lia. Qed.
Lemma memo_ext : forall (A : Type) (f : N -> A) w, memo f w = f w.
Proof. intros. unfold memo. destruct (N.eqb_spec w 0); subst; auto. destruct (N.eqb_spec w 1); subst; auto. Qed.
Lemma init_keep : forall n w k (a b : N), fsm s = F_INIT -> ctr s < 2 ^ bw_lines p -> n < ctr s -> w = lway p n -> k = lidx p n ->
  a < 2 ^ tagarrw p -> b < 2 ^ tagarrw p ->
  (if reg_en0 p s i then fsm_next p s i else fsm s) = F_INIT /\
  (if reg_en0 p s i && ctr_en p s i then ctr_dec p s else ctr s) < 2 ^ bw_lines p /\ a < 2 ^ tagarrw p /\ b < 2 ^ tagarrw p /\
  exists n, n <= (if reg_en0 p s i && ctr_en p s i then ctr_dec p s else ctr s) /\ w = lway p n /\ k = lidx p n.
Proof.
  intros n w k a b FI B L EW EK F1 F2.
  assert (D : ctr_dec p s = ctr s - 1).
  { unfold ctr_dec, trunc. rewrite N.land_ones. replace (ctr s + (2 ^ bw_lines p - 1)) with (ctr s - 1 + 1 * 2 ^ bw_lines p) by lia.
    rewrite N.mod_add by (apply N.pow_nonzero; lia). apply N.mod_small. lia. }
  rewrite D. split; [|split; [|split; [|split]]]; auto.
  - unfold fsm_next. rewrite FI. destruct (N.eqb_spec (ctr s) 0); [lia|]. destruct (reg_en0 p s i); auto.
  - destruct (reg_en0 p s i && ctr_en p s i); lia.
  - exists n. split; auto. destruct (reg_en0 p s i && ctr_en p s i); lia.
Qed.

Lemma pow_next : pow_eq (next p s i) (next p s' i').
Proof.
  assert (RE0 : reg_en0 p s' i' = reg_en0 p s i) by (unfold reg_en0; rewrite w_stall; auto).
  assert (C0 : is_cinit0 p s' i' = is_cinit0 p s i) by (unfold is_cinit0; rewrite w_trans0; auto).
  assert (RE1 : reg_en1 p s' i' = reg_en1 p s i) by (unfold reg_en1; rewrite w_stall, w_ev1, C0; auto).
  assert (CE1 : creg_en1 p s' i' = creg_en1 p s i) by (unfold creg_en1; rewrite RE1, C0; auto).
  assert (RE2 : reg_en2 s' i' = reg_en2 s i) by (unfold reg_en2, is_cinit1; rewrite w_os2, w_t1; auto).
  assert (CE2 : creg_en2 s' i' = creg_en2 s i) by (unfold creg_en2, is_cinit1; rewrite RE2, w_t1; auto).
  assert (AE : alloc_en p s' i' = alloc_en p s i) by (unfold alloc_en, cs1_alloc; rewrite w_stall, w_cs1; auto).
  assert (DE : dealloc_en p s' i' = dealloc_en p s i) by (unfold dealloc_en, cs0_dealloc; rewrite w_stall, w_cs0; auto).
  assert (CT : ctr_en p s' i' = ctr_en p s i) by (unfold ctr_en; rewrite w_trans0, (pe_fsm _ _ C); auto).
  assert (II : init_idx0 p s' i' = init_idx0 p s i) by (unfold init_idx0; rewrite w_upd; auto).
  assert (T2 : cs0_wr p s' i' = cs0_wr p s i) by (unfold cs0_wr; rewrite w_cs0; auto).
  assert (T3 : cs0_wben p s' i' = cs0_wben p s i) by (unfold cs0_wben; rewrite w_cs0; auto).
  destruct w_rep as [RP1 RP2]. destruct w_idx1 as [IX OF]. destruct in_eq as (IN1 & IN2 & IN3 & IN4 & IN5 & IN6).
  constructor; cbn [fsm ctr mrv mrm msn msr t1 wp1 utw1 q1 fi1 dm1 rep tram tdout tsr hsr wst
       t2 ev2 hit2 fs2 q2 wm2 dram ddout dsr next].
  - rewrite RE0, w_fsm, (pe_fsm _ _ C). auto.
  - rewrite RE0, CT, (pe_ctr _ _ C). unfold ctr_dec. rewrite (pe_ctr _ _ C). auto.
  - rewrite RE0, IN4, (pe_mrv _ _ C). auto.
  - rewrite RE0. destruct (reg_en0 p s i); auto. apply (pe_mrm _ _ C).
  - rewrite AE, DE, (pe_msn _ _ C). auto.
  - rewrite AE. destruct (alloc_en p s i); [|apply (pe_msq _ _ C)].
    destruct w_q1 as (A1 & A2 & A3 & A4). apply hide_creq_mk; cbn; auto.
  - rewrite AE. destruct (alloc_en p s i); [apply w_way | apply (pe_msw _ _ C)].
  - rewrite AE. destruct (alloc_en p s i); [|apply (pe_msa _ _ C)]. cbn. rewrite w_hitq. auto.
  - rewrite AE. destruct (alloc_en p s i); [|apply (pe_msd _ _ C)]. cbn. rewrite w_ev1, w_wm. auto.
  - rewrite CE1, w_trans0, w_t1. auto.
  - rewrite CE1, (pe_msw _ _ C), (pe_wp1 _ _ C). auto.
  - rewrite CE1, w_utw, (pe_utw1 _ _ C). auto.
  - rewrite RE1. destruct (reg_en1 p s i); [apply w_q0 | apply (pe_q1 _ _ C)].
  - rewrite CE1, II, (pe_fi1 _ _ C). auto.
  - rewrite RE1, (pe_msd _ _ C), (pe_dm1 _ _ C). auto.
  - intros k. unfold rep_en1. rewrite RP1, RP2, IX, w_os2. destruct (repreq_en1 p s && negb (ostall2 s i)); [|apply (pe_rep _ _ C)].
    unfold upd. rewrite (pe_rep _ _ C). auto.
  - intros w k. rewrite !memo_ext, w_val0, T2, T3, w_idx0, w_wdata0. unfold sram_wr.
    destruct fsm_dec as [FI | FI].
    + assert (TI : trans0 p s i = TR_CACHE_INIT) by (unfold trans0; rewrite FI; auto).
      assert (WR : cs0_wr p s i = true /\ cs0_wben p s i = N.ones (tagarrw p) /\ tag_idx0 p s i = lidx p (ctr s) /\ forall w, tag_val0 p s i w = (w =? lway p (ctr s))).
      { unfold cs0_wr, cs0_wben, tag_idx0, cs0_idxsel, init_idx0, upd_way_idx0, tag_val0, is_ctr_way0, ctr_way0, upd_way_idx0, cs0. rewrite TI. cbn [trans_eqb orb fst snd]. auto. }
      destruct WR as (WR & WB & IX0 & TV). rewrite WR, WB, IX0, TV, andb_true_r.
      destruct (N.eqb_spec w (lway p (ctr s))) as [EW | NW].
      * unfold upd. destruct (N.eqb_spec k (lidx p (ctr s))) as [EK | NK].
        -- left. subst w k. destruct (pe_tram _ _ C (lway p (ctr s)) (lidx p (ctr s))) as [-> | (_ & _ & F1 & F2 & _)]; auto.
           unfold mwrite. rewrite !ldiff_ones; auto.
        -- destruct (pe_tram _ _ C w k) as [-> | (_ & B & F1 & F2 & n & N1 & N2 & N3)]; auto. right.
           assert (n <> ctr s) by congruence. apply (init_keep n); auto; lia.
      * destruct (pe_tram _ _ C w k) as [-> | (_ & B & F1 & F2 & n & N1 & N2 & N3)]; auto. right.
        assert (n <> ctr s) by congruence. apply (init_keep n); auto; lia.
    + left. assert (TR : forall w k, tram s' w k = tram s w k) by (intros; destruct (pe_tram _ _ C w0 k0) as [? | [? _]]; [auto | contradiction]).
      destruct (tag_val0 p s i w && cs0_wr p s i); auto. unfold upd. rewrite !TR. auto.
  - intros w. rewrite !memo_ext, w_val0, T2, w_idx0. unfold sram_rd. destruct (tag_val0 p s i w && negb (cs0_wr p s i)) eqn:RD; [|apply (pe_tdout _ _ C)].
    destruct (pe_tram _ _ C w (tag_idx0 p s i)) as [? | (FI & _)]; auto.
    assert (TI : trans0 p s i = TR_CACHE_INIT) by (unfold trans0; rewrite FI; auto).
    unfold cs0_wr, cs0 in RD. rewrite TI in RD. cbn [fst snd negb] in RD. rewrite andb_false_r in RD. discriminate RD.
  - apply w_tagq.
  - apply w_hitq.
  - apply w_os2.
  - rewrite CE2, w_t1, (pe_t2 _ _ C). auto.
  - rewrite CE2, w_ev1, (pe_ev2 _ _ C). auto.
  - rewrite CE2, w_hit1, (pe_hit2 _ _ C). auto.
  - rewrite CE2, w_hfs, (pe_fs2 _ _ C). auto.
  - rewrite RE2. destruct (reg_en2 s i); [apply w_q12 | apply (pe_q2 _ _ C)].
  - rewrite RE2, w_wm, (pe_wm2 _ _ C). auto.
Qed.

Lemma pow_out : hide_out (output p s' i') = hide_out (output p s i).
Proof.
  destruct (hide_creq_eq _ _ (pe_q2 _ _ C)) as (A1 & A2 & A3 & A4).
  unfold hide_out, output. cbn [o_req_rdy o_resp o_mreq]. f_equal.
  - unfold req_rdy, mshr_full, mshr_empty, alloc_en, cs1_alloc.
    rewrite (pe_fsm _ _ C), (pe_msn _ _ C), w_whc, w_stall, w_cs1. auto.
  - unfold resp_en. rewrite w_cs2. destruct (snd (cs2 s i)); auto. cbn [option_map]. f_equal.
    unfold hide_cresp, resp_out. cbn [cr_type cr_opq cr_test cr_len]. rewrite A1, A2, A4, (pe_hit2 _ _ C). auto.
  - unfold memreq_en. rewrite w_cs2. destruct (snd (fst (cs2 s i))); auto. cbn [option_map]. f_equal.
    unfold hide_mreq, memreq_out, memreq_type, cs2_mtype, is_amo2, off2. cbn [mq_type mq_opq mq_addr mq_len mq_mask].
    rewrite w_cs2, A1, A2, A3, A4, (pe_t2 _ _ C), (pe_ev2 _ _ C), (pe_wm2 _ _ C). auto.
Qed.
End One.

Theorem power_run : forall is is' s s', pow_eq s s' -> map hide_in is' = map hide_in is ->
  map hide_out (snd (run p s' is')) = map hide_out (snd (run p s is)) /\
  pow_eq (fst (run p s is)) (fst (run p s' is')).
Proof.
  induction is as [|i is IH]; intros is' s s' C E; destruct is' as [|i' is']; try discriminate E.
  - split; auto.
  - cbn [map] in E. cbn [run step].
    assert (E1' : hide_in i' = hide_in i) by exact (f_equal (hd (hide_in i)) E).
    assert (E2 : map hide_in is' = map hide_in is) by exact (f_equal (@tl inp) E).
    destruct (IH is' _ _ (pow_next s s' i i' C E1') E2) as [H1 H2].
    destruct (run p (next p s i) is) as [u os]. destruct (run p (next p s' i') is') as [u' os'].
    cbn [fst snd map] in *. split; auto. f_equal; auto. apply pow_out; auto.
Qed.

Lemma pow_refl : forall s, pow_eq s s.
Proof. constructor; auto. Qed.
End O.
