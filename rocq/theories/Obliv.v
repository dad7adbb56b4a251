(** Data do not influence control: in every cycle, everything on the output
    ports except the data fields is a function of the input ports except the
    data fields.  Hence every statement about control (echo, hit flags, memory
    request headers, timing, progress) holds with any memory that answers in
    order, whatever data it returns. *)
From Coq Require Import NArith List Bool Lia.
From Verif Require Import Bits Params Msg Units Rtl Mem Spec System Hide.
Import ListNotations.
Open Scope N_scope.

(** Two states that differ at most in data: the data array, its outputs, and the
    data fields of messages held in registers. *)
Record ctl_eq (s s' : st) : Prop := mkCtl {
  ce_fsm : fsm s' = fsm s; ce_ctr : ctr s' = ctr s; ce_mrv : mrv s' = mrv s;
  ce_mrm : mr_type (mrm s') = mr_type (mrm s);
  ce_msn : msn s' = msn s; ce_msq : hide_creq (ms_req (msr s')) = hide_creq (ms_req (msr s));
  ce_msw : ms_repl (msr s') = ms_repl (msr s); ce_msa : ms_amo_hit (msr s') = ms_amo_hit (msr s);
  ce_msd : ms_dirty (msr s') = ms_dirty (msr s);
  ce_t1 : t1 s' = t1 s; ce_wp1 : wp1 s' = wp1 s; ce_utw1 : utw1 s' = utw1 s;
  ce_q1 : hide_creq (q1 s') = hide_creq (q1 s); ce_fi1 : fi1 s' = fi1 s; ce_dm1 : dm1 s' = dm1 s;
  ce_rep : rep s' = rep s; ce_tram : tram s' = tram s; ce_tdout : tdout s' = tdout s;
  ce_tsr : tsr s' = tsr s; ce_hsr : hsr s' = hsr s; ce_wst : wst s' = wst s;
  ce_t2 : t2 s' = t2 s; ce_ev2 : ev2 s' = ev2 s; ce_hit2 : hit2 s' = hit2 s; ce_fs2 : fs2 s' = fs2 s;
  ce_q2 : hide_creq (q2 s') = hide_creq (q2 s); ce_wm2 : wm2 s' = wm2 s
}.

Lemma hide_creq_eq : forall q q', hide_creq q' = hide_creq q ->
  cq_type q' = cq_type q /\ cq_opq q' = cq_opq q /\ cq_addr q' = cq_addr q /\ cq_len q' = cq_len q.
Proof. intros q q' H. inversion H. auto. Qed.
Lemma hide_creq_mk : forall q q', cq_type q' = cq_type q -> cq_opq q' = cq_opq q -> cq_addr q' = cq_addr q ->
  cq_len q' = cq_len q -> hide_creq q' = hide_creq q.
Proof. intros. unfold hide_creq. congruence. Qed.

Section O.
Variable p : params.

Section One.
Variables (s s' : st) (i i' : inp).
Hypothesis C : ctl_eq s s'.
Hypothesis I : hide_in i' = hide_in i.

Lemma in_eq : i_req_en i' = i_req_en i /\ i_resp_rdy i' = i_resp_rdy i /\ i_mreq_rdy i' = i_mreq_rdy i /\
  i_mresp_en i' = i_mresp_en i /\ hide_creq (i_req i') = hide_creq (i_req i) /\ mr_type (i_mresp i') = mr_type (i_mresp i).
Proof. unfold hide_in in I. inversion I. repeat split; auto. unfold hide_creq. congruence. Qed.

Lemma o_pu : pu p s' = pu p s.
Proof.
  destruct C. destruct (hide_creq_eq _ _ ce_q3) as (_ & _ & QA & _).
  unfold pu, tag_proc_en, is_init1, tagq. rewrite ce_t3, ce_ev3, ce_wst0, ce_tdout0, ce_tsr0, QA. auto.
Qed.
Lemma o_tagq : tagq s' = tagq s.
Proof. destruct C. unfold tagq. rewrite ce_wst0, ce_tdout0, ce_tsr0. auto. Qed.
Lemma o_tpe : tag_proc_en s' = tag_proc_en s.
Proof. destruct C. unfold tag_proc_en. rewrite ce_t3, ce_ev3. auto. Qed.
Lemma o_ld : forall w, pu_ld p s' w = pu_ld p s w.
Proof. intros. unfold pu_ld. rewrite o_tpe, o_tagq. auto. Qed.
Lemma o_ent : forall w, pu_ent s' w = pu_ent s w.
Proof. intros. unfold pu_ent. rewrite o_tpe, o_tagq. auto. Qed.
Lemma o_q1 : cq_type (q1 s') = cq_type (q1 s) /\ cq_opq (q1 s') = cq_opq (q1 s) /\ cq_addr (q1 s') = cq_addr (q1 s) /\ cq_len (q1 s') = cq_len (q1 s).
Proof. apply hide_creq_eq. apply (ce_q1 _ _ C). Qed.
Lemma o_idx1 : idx1 p s' = idx1 p s /\ off1 p s' = off1 p s.
Proof. destruct o_q1 as (_ & _ & A & _). unfold idx1, off1. rewrite A. auto. Qed.
Lemma o_wd : forall w, pu_wd p s' w = pu_wd p s w.
Proof.
  intros. unfold pu_wd. rewrite o_tagq. destruct o_idx1 as [_ ->]. destruct o_q1 as (_ & _ & _ & ->). auto.
Qed.
Lemma o_rep_rd : rep_rd p s' = rep_rd p s.
Proof. unfold rep_rd. destruct o_idx1 as [-> _]. rewrite (ce_rep _ _ C). auto. Qed.
Lemma o_t1 : t1 s' = t1 s. Proof. apply (ce_t1 _ _ C). Qed.
Lemma o_hitq : hitq p s' = hitq p s.
Proof.
  unfold hitq, hsr_en, hsr_in, pu_hit, pu_inval, pu_hit_way. rewrite o_pu, (ce_wst _ _ C), (ce_ev2 _ _ C), (ce_hsr _ _ C). auto.
Qed.
Lemma o_hit1 : hit1 p s' = hit1 p s.
Proof. unfold hit1, is_rwi1, is_amo1, pu_hit. rewrite o_pu, o_t1. auto. Qed.
Lemma o_dty1 : is_dty1 p s' = is_dty1 p s.
Proof.
  unfold is_dty1, is_rwi1, is_amo1, pu_hit_way. rewrite o_hit1, o_pu, o_t1, o_wd, !o_ld, o_rep_rd. auto.
Qed.
Lemma o_ev1 : is_evict1 p s' = is_evict1 p s.
Proof. unfold is_evict1, is_rwi1, is_amo1, pu_inval. rewrite o_dty1, o_hit1, o_pu, o_t1. auto. Qed.
Lemma o_whc : write_hit_clean p s' = write_hit_clean p s.
Proof. unfold write_hit_clean, is_rwi1, pu_inval. rewrite o_dty1, o_hit1, o_pu, o_t1. auto. Qed.
Lemma o_rep : repreq_en1 p s' = repreq_en1 p s /\ rep_wr p s' = rep_wr p s.
Proof.
  unfold rep_wr, repreq_en1, repreq_is_hit1, repreq_hit_ptr1, is_rwi1, is_amo1, is_init1, pu_inval, pu_hit_way.
  rewrite o_ev1, o_hit1, o_pu, o_t1, o_rep_rd. auto.
Qed.
Lemma o_way : way_offset1 p s' = way_offset1 p s.
Proof.
  unfold way_offset1, pu_inval, pu_hit_way.
  rewrite o_t1, o_hit1, o_pu, o_rep_rd, o_hitq, (ce_wp1 _ _ C), (ce_utw1 _ _ C). auto.
Qed.
Lemma o_hfs : has_flush_sent1 p s' = has_flush_sent1 p s.
Proof. unfold has_flush_sent1. rewrite o_t1, (ce_utw1 _ _ C), o_ld. auto. Qed.
Lemma o_nfn : no_flush_needed1 p s' = no_flush_needed1 p s.
Proof. unfold no_flush_needed1. rewrite o_t1, (ce_utw1 _ _ C), o_ld. auto. Qed.
Lemma o_cs1 : cs1 p s' = cs1 p s.
Proof. unfold cs1. rewrite o_t1, o_ev1, o_hit1, o_hfs. auto. Qed.
Lemma o_addr12 : addr1_2 p s' = addr1_2 p s.
Proof.
  unfold addr1_2, cs1_evmux, evict_addr1, ev_idx1, flush_idx_sel1. rewrite o_cs1, o_tagq, o_way, o_t1, (ce_fi1 _ _ C).
  destruct o_idx1 as [-> _]. destruct o_q1 as (_ & _ & -> & _). auto.
Qed.
Lemma o_q12 : hide_creq (q1_2 p s') = hide_creq (q1_2 p s).
Proof.
  destruct o_q1 as (A & B & _ & D). apply hide_creq_mk; cbn [q1_2 cq_type cq_opq cq_addr cq_len]; auto. apply o_addr12.
Qed.
Lemma o_wm : write_mask1 p s' = write_mask1 p s.
Proof. unfold write_mask1. rewrite o_ent, o_way. auto. Qed.
Lemma o_cs2 : cs2 s' i' = cs2 s i.
Proof.
  destruct in_eq as (_ & A & B & _). unfold cs2. rewrite (ce_t2 _ _ C), A, B, (ce_fs2 _ _ C), (ce_ev2 _ _ C), (ce_hit2 _ _ C). auto.
Qed.
Lemma o_os2 : ostall2 s' i' = ostall2 s i.
Proof. unfold ostall2. rewrite o_cs2. auto. Qed.
Lemma o_stall : stall01 p s' i' = stall01 p s i.
Proof. unfold stall01, ostall1. rewrite o_cs1, o_os2. auto. Qed.
Lemma o_mux : mux_sel0 s' = mux_sel0 s.
Proof. unfold mux_sel0. rewrite (ce_fsm _ _ C), (ce_mrv _ _ C). auto. Qed.
Lemma o_rm : hide_creq (req_mux0 s' i') = hide_creq (req_mux0 s i).
Proof.
  unfold req_mux0. rewrite o_mux. destruct (mux_sel0 s); [apply (ce_msq _ _ C)|]. apply in_eq.
Qed.
Lemma o_rm4 : cq_type (req_mux0 s' i') = cq_type (req_mux0 s i) /\ cq_opq (req_mux0 s' i') = cq_opq (req_mux0 s i) /\
  cq_addr (req_mux0 s' i') = cq_addr (req_mux0 s i) /\ cq_len (req_mux0 s' i') = cq_len (req_mux0 s i).
Proof. apply hide_creq_eq, o_rm. Qed.
Lemma o_mt : mshr_type s' = mshr_type s.
Proof. unfold mshr_type. apply (hide_creq_eq _ _ (ce_msq _ _ C)). Qed.
Lemma o_trans0 : trans0 p s' i' = trans0 p s i.
Proof.
  destruct o_rm4 as (A & _). destruct in_eq as (B & _).
  unfold trans0, req_type0, prev_flush_done, mr_ack, mr_val, mshr_empty, flush_refill_bypass.
  rewrite o_whc, o_mt, o_hfs, o_nfn, o_t1, A, B, (ce_fsm _ _ C), (ce_mrv _ _ C), (ce_mrm _ _ C), (ce_msn _ _ C). auto.
Qed.
Lemma o_fsm : fsm_next p s' i' = fsm_next p s i.
Proof.
  destruct o_rm4 as (A & _). destruct in_eq as (B & _).
  unfold fsm_next, req_type0, prev_flush_done, mr_ack, mr_val, mshr_empty, flush_refill_bypass.
  rewrite o_mt, o_hfs, o_nfn, o_t1, A, B, (ce_fsm _ _ C), (ce_mrv _ _ C), (ce_mrm _ _ C), (ce_msn _ _ C), (ce_ctr _ _ C). auto.
Qed.
Lemma o_cs0 : cs0 p s' i' = cs0 p s i.
Proof. unfold cs0. rewrite o_trans0. auto. Qed.
Lemma o_upd : upd_way_idx0 p s' i' = upd_way_idx0 p s i.
Proof. unfold upd_way_idx0. rewrite o_trans0, (ce_ctr _ _ C). auto. Qed.
Lemma o_utw : upd_tag_way0 p s' i' = upd_tag_way0 p s i.
Proof. unfold upd_tag_way0, is_ctr_way0, ctr_way0. rewrite o_trans0, o_upd. auto. Qed.
Lemma o_val0 : forall w, tag_val0 p s' i' w = tag_val0 p s i w.
Proof.
  intros. unfold tag_val0, is_ctr_way0, ctr_way0, pu_hit_way.
  rewrite o_trans0, o_upd, (ce_msw _ _ C), (ce_msa _ _ C), o_rep_rd, o_pu. auto.
Qed.
Lemma o_addr0 : addr0 p s' i' = addr0 p s i /\ len0 p s' i' = len0 p s i.
Proof.
  destruct o_rm4 as (_ & _ & A & B). destruct o_q1 as (_ & _ & D & E).
  unfold addr0, len0, cs0_admux. rewrite o_cs0, A, B, D, E. auto.
Qed.
Lemma o_idx0 : tag_idx0 p s' i' = tag_idx0 p s i.
Proof. unfold tag_idx0, cs0_idxsel, init_idx0. rewrite o_cs0, o_upd. destruct o_addr0 as [-> _]. auto. Qed.
Lemma o_wdata0 : tag_wdata0 p s' i' = tag_wdata0 p s i.
Proof.
  unfold tag_wdata0, tag_tag0, new_entry0, upd_way_mux0, cs0_tagsel, cs0_cmd, pu_hit_way.
  rewrite o_cs0, o_utw, o_pu, o_ent, (ce_msd _ _ C). destruct o_addr0 as [-> ->]. auto.
Qed.
Lemma o_q0 : hide_creq (q0 p s' i') = hide_creq (q0 p s i).
Proof.
  destruct o_rm4 as (A & B & _ & _). destruct o_addr0 as [D E].
  apply hide_creq_mk; cbn [q0 cq_type cq_opq cq_addr cq_len]; auto.
Qed.

Lemma obl_next : ctl_eq (next p s i) (next p s' i').
Proof.
  assert (RE0 : reg_en0 p s' i' = reg_en0 p s i) by (unfold reg_en0; rewrite o_stall; auto).
  assert (C0 : is_cinit0 p s' i' = is_cinit0 p s i) by (unfold is_cinit0; rewrite o_trans0; auto).
  assert (RE1 : reg_en1 p s' i' = reg_en1 p s i) by (unfold reg_en1; rewrite o_stall, o_ev1, C0; auto).
  assert (CE1 : creg_en1 p s' i' = creg_en1 p s i) by (unfold creg_en1; rewrite RE1, C0; auto).
  assert (RE2 : reg_en2 s' i' = reg_en2 s i) by (unfold reg_en2, is_cinit1; rewrite o_os2, o_t1; auto).
  assert (CE2 : creg_en2 s' i' = creg_en2 s i) by (unfold creg_en2, is_cinit1; rewrite RE2, o_t1; auto).
  assert (AE : alloc_en p s' i' = alloc_en p s i) by (unfold alloc_en, cs1_alloc; rewrite o_stall, o_cs1; auto).
  assert (DE : dealloc_en p s' i' = dealloc_en p s i) by (unfold dealloc_en, cs0_dealloc; rewrite o_stall, o_cs0; auto).
  assert (CT : ctr_en p s' i' = ctr_en p s i) by (unfold ctr_en; rewrite o_trans0, (ce_fsm _ _ C); auto).
  assert (II : init_idx0 p s' i' = init_idx0 p s i) by (unfold init_idx0; rewrite o_upd; auto).
  assert (T : (tag_val0 p s' i') = (tag_val0 p s i) /\ cs0_wr p s' i' = cs0_wr p s i /\ cs0_wben p s' i' = cs0_wben p s i).
  { unfold cs0_wr, cs0_wben. rewrite o_cs0. split; auto.
    unfold tag_val0, is_ctr_way0, ctr_way0, pu_hit_way.
    rewrite o_trans0, o_upd, (ce_msw _ _ C), (ce_msa _ _ C), o_rep_rd, o_pu. auto. }
  destruct T as (T1 & T2 & T3).
  destruct o_rep as [RP1 RP2]. destruct o_idx1 as [IX OF]. destruct in_eq as (IN1 & IN2 & IN3 & IN4 & IN5 & IN6).
  constructor; cbn [fsm ctr mrv mrm msn msr t1 wp1 utw1 q1 fi1 dm1 rep tram tdout tsr hsr wst
       t2 ev2 hit2 fs2 q2 wm2 dram ddout dsr next].
  - rewrite RE0, o_fsm, (ce_fsm _ _ C). auto.
  - rewrite RE0, CT, (ce_ctr _ _ C). unfold ctr_dec. rewrite (ce_ctr _ _ C). auto.
  - rewrite RE0, IN4, (ce_mrv _ _ C). auto.
  - rewrite RE0. destruct (reg_en0 p s i); auto. apply (ce_mrm _ _ C).
  - rewrite AE, DE, (ce_msn _ _ C). auto.
  - rewrite AE. destruct (alloc_en p s i); [|apply (ce_msq _ _ C)].
    destruct o_q1 as (A1 & A2 & A3 & A4). apply hide_creq_mk; cbn; auto.
  - rewrite AE. destruct (alloc_en p s i); [apply o_way | apply (ce_msw _ _ C)].
  - rewrite AE. destruct (alloc_en p s i); [|apply (ce_msa _ _ C)]. cbn. rewrite o_hitq. auto.
  - rewrite AE. destruct (alloc_en p s i); [|apply (ce_msd _ _ C)]. cbn. rewrite o_ev1, o_wm. auto.
  - rewrite CE1, o_trans0, o_t1. auto.
  - rewrite CE1, (ce_msw _ _ C), (ce_wp1 _ _ C). auto.
  - rewrite CE1, o_utw, (ce_utw1 _ _ C). auto.
  - rewrite RE1. destruct (reg_en1 p s i); [apply o_q0 | apply (ce_q1 _ _ C)].
  - rewrite CE1, II, (ce_fi1 _ _ C). auto.
  - rewrite RE1, (ce_msd _ _ C), (ce_dm1 _ _ C). auto.
  - unfold rep_en1. rewrite RP1, RP2, IX, o_os2, (ce_rep _ _ C). auto.
  - rewrite T1, T2, T3, o_idx0, o_wdata0, (ce_tram _ _ C). auto.
  - rewrite T1, T2, o_idx0, (ce_tram _ _ C), (ce_tdout _ _ C). auto.
  - apply o_tagq.
  - apply o_hitq.
  - apply o_os2.
  - rewrite CE2, o_t1, (ce_t2 _ _ C). auto.
  - rewrite CE2, o_ev1, (ce_ev2 _ _ C). auto.
  - rewrite CE2, o_hit1, (ce_hit2 _ _ C). auto.
  - rewrite CE2, o_hfs, (ce_fs2 _ _ C). auto.
  - rewrite RE2. destruct (reg_en2 s i); [apply o_q12 | apply (ce_q2 _ _ C)].
  - rewrite RE2, o_wm, (ce_wm2 _ _ C). auto.
Qed.

Lemma obl_out : hide_out (output p s' i') = hide_out (output p s i).
Proof.
  destruct (hide_creq_eq _ _ (ce_q2 _ _ C)) as (A1 & A2 & A3 & A4).
  unfold hide_out, output. cbn [o_req_rdy o_resp o_mreq]. f_equal.
  - unfold req_rdy, mshr_full, mshr_empty, alloc_en, cs1_alloc.
    rewrite (ce_fsm _ _ C), (ce_msn _ _ C), o_whc, o_stall, o_cs1. auto.
  - unfold resp_en. rewrite o_cs2. destruct (snd (cs2 s i)); auto. cbn [option_map]. f_equal.
    unfold hide_cresp, resp_out. cbn [cr_type cr_opq cr_test cr_len]. rewrite A1, A2, A4, (ce_hit2 _ _ C). auto.
  - unfold memreq_en. rewrite o_cs2. destruct (snd (fst (cs2 s i))); auto. cbn [option_map]. f_equal.
    unfold hide_mreq, memreq_out, memreq_type, cs2_mtype, is_amo2, off2. cbn [mq_type mq_opq mq_addr mq_len mq_mask].
    rewrite o_cs2, A1, A2, A3, A4, (ce_t2 _ _ C), (ce_ev2 _ _ C), (ce_wm2 _ _ C). auto.
Qed.
End One.

Theorem oblivious : forall is is' s s', ctl_eq s s' -> map hide_in is' = map hide_in is ->
  map hide_out (snd (run p s' is')) = map hide_out (snd (run p s is)) /\
  ctl_eq (fst (run p s is)) (fst (run p s' is')).
Proof.
  induction is as [|i is IH]; intros is' s s' C E; destruct is' as [|i' is']; try discriminate E.
  - split; auto.
  - cbn [map] in E. cbn [run step].
    assert (E1' : hide_in i' = hide_in i) by exact (f_equal (hd (hide_in i)) E).
    assert (E2 : map hide_in is' = map hide_in is) by exact (f_equal (@tl inp) E).
    destruct (IH is' _ _ (obl_next s s' i i' C E1') E2) as [H1 H2].
    destruct (run p (next p s i) is) as [u os]. destruct (run p (next p s' i') is') as [u' os'].
    cbn [fst snd map] in *. split; auto. f_equal; auto. apply obl_out; auto.
Qed.

Lemma ctl_refl : forall s, ctl_eq s s.
Proof. constructor; auto. Qed.
End O.
