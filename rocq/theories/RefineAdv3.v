(** Advancing cycles: INV and FLUSH. *)
From Coq Require Import NArith List Bool Lia.
From Verif Require Import Bits Params Msg Units Rtl Tl ParamsProofs RtlLemmas RefineInv RefineStall RefineReq RefineAdv1 RefineAdv2.
Import ListNotations.
Open Scope N_scope.

Section A.
Variable p : params.
Hypothesis W : wf_params p.

Lemma noreq_alloc : forall s out i, legal p s out i -> cs1_alloc p s = true -> i_req_en i = false.
Proof.
  intros s out i L M. destruct (i_req_en i) eqn:E; auto. destruct (lg_req _ _ _ _ L E) as [R _].
  apply req_rdy_inv in R. destruct R as (_ & _ & _ & R). congruence.
Qed.

Lemma lfrom_idem : forall f k T w j, (forall e, f (f e) = f e) ->
  (if inrange p w j && (lnum p w j =? last_line p) then f (lfrom p f k T w j) else lfrom p f k T w j) =
  (if inrange p w j && (k <=? lnum p w j) || inrange p w j && (lnum p w j =? last_line p) then f (T w j) else T w j).
Proof.
  intros. unfold lfrom. destruct (inrange p w j && (k <=? lnum p w j)), (inrange p w j && (lnum p w j =? last_line p)); cbn; auto.
Qed.

Lemma lfrom_0 : forall f T w j, lfrom p f 0 T w j = tmap p f T w j.
Proof. intros. unfold lfrom, tmap. rewrite (proj2 (N.leb_le 0 _)) by lia. rewrite andb_true_r. destruct (inrange p w j); auto. Qed.

Lemma m2_quiet_none : forall s i, ostall2 s i = false -> m2_active (t1 s) = false ->
  resp2 p (next p s i) = None /\ mem2 p (next p s i) = None.
Proof.
  intros s i S H. apply m2_inactive. rewrite an_t2; auto.
Qed.

Lemma noresp_data : forall q x, cq_type q = cq_type q ->
  m2_resp p TR_REPLAY_INV false false q x = Some (mkCResp (cq_type q) (cq_opq q) 0 (cq_len q) 0) /\
  m2_resp p TR_REPLAY_FLUSH false false q x = Some (mkCResp (cq_type q) (cq_opq q) 0 (cq_len q) 0).
Proof. intros. unfold m2_resp. rewrite fast_select_off. auto. Qed.

Lemma adv_inv : forall s a i r k, ph_inv p s a r k -> legal p s (a_outst a) i -> ostall2 s i = false ->
  exists a', acyc p a i (output p s i) a' /\ phase p (next p s i) a'.
Proof.
  intros s a i r k P L S. destruct P.
  set (c := a_c a) in *.
  pose proof (total_ge2 p W) as G2.
  assert (O : a_outst a = []) by (eapply outst_cur; eauto).
  pose proof (no_recv p s a i L O) as NRv. rewrite O in L.
  assert (FI : fsm s <> F_INIT) by (rewrite iv_fsm; discriminate).
  assert (Q : quiet_t (t1 s) = true /\ m2_active (t1 s) = false) by (destruct iv_t1 as [(-> & _) | (-> & _)]; auto).
  destruct Q as [Q Q2].
  pose proof (quiet_evict p s Q) as EV. pose proof (quiet_whc p s Q) as WH.
  assert (RE : i_req_en i = false).
  { destruct iv_t1 as [(T & _) | (T & M & _)].
    - eapply noreq_alloc; eauto. unfold cs1_alloc, cs1. rewrite EV, T. auto.
    - eapply noreq_msn; eauto. }
  assert (TR : trans0 p s i = TR_INV_WRITE) by (unfold trans0; rewrite iv_fsm, WH; auto).
  destruct (m2_quiet_none s i S Q2) as [R2 M2].
  assert (NM : i_mresp_en i = false) by (eapply noresp; eauto).
  assert (CW : cs1_wr p s = false) by (apply cs1_wr_false; destruct iv_t1 as [(-> & _) | (-> & _)]; auto).
  assert (T1' : t1 (next p s i) = TR_INV_WRITE) by (rewrite an_t1; auto).
  assert (MSN : msn (next p s i) = 1 /\ ms_req (msr (next p s i)) = mshr_req p r).
  { rewrite an_msn, an_msr by auto. unfold cs1_alloc, cs1, cs0_dealloc, cs0. rewrite EV, TR.
    destruct iv_t1 as [(-> & _ & -> & Q1) | (-> & -> & Q1)]; cbn [fst snd]; [|auto].
    split; auto. unfold mshr_alloc_in. rewrite Q1. auto. }
  destruct MSN as [MSN MSR].
  assert (TT : forall w j, tram (next p s i) w j = lfrom p (ent_inv p) k (ct c) w j).
  { intros. rewrite tram_indep by auto. auto. }
  assert (CT : ctr (next p s i) = prev_line p k).
  { rewrite an_ctr by auto. unfold ctr_en. rewrite iv_fsm. cbn [fsm_eqb orb].
    rewrite ctr_dec_prev by (auto; rewrite iv_ctr; auto). rewrite iv_ctr. auto. }
  assert (FS : fsm (next p s i) = if k =? 0 then F_REPLAY else F_INV).
  { rewrite an_fsm by auto. unfold fsm_next. rewrite iv_fsm, iv_ctr. auto. }
  assert (MV : mrv (next p s i) = false) by (rewrite an_mrv; auto).
  assert (DD : forall j, dram (next p s i) j = cd c j) by (intro; rewrite an_dram, dnext_nowr; auto).
  assert (RR : forall j, rep (next p s i) j = cr c j) by (intro; rewrite quiet_rep; auto).
  assert (WH' : write_hit_clean p (next p s i) = false) by (apply quiet_whc; rewrite T1'; auto).
  exists (mkA c (a_cur a) []). split.
  { eexists _, _, _. split; [exact NRv|]. split; [apply send_resp; auto; rewrite app_nil_r; auto|].
    split; [right; reflexivity|]. unfold o_acc. rewrite RE. auto. }
  destruct (N.eqb_spec k 0) as [K0|K0].
  - rewrite K0 in CT, TT. apply P_invl with r. constructor; cbn [a_c a_cur a_pend]; auto.
    + rewrite R2. auto.
    + intros w j. unfold tnext. rewrite inv_write; auto.
      * rewrite CT. change (prev_line p 0) with (last_line p). rewrite TT.
        rewrite lfrom_idem by (apply ent_inv_idem). unfold lfrom. rewrite !(proj2 (N.leb_le 0 _)) by lia.
        destruct (inrange p w j); auto.
      * right. unfold trans0, mshr_empty, mshr_type. rewrite FS, WH', MSN, MSR. cbn [mshr_req cq_type]. rewrite iv_ty. auto.
      * rewrite CT. unfold prev_line, last_line. cbn. lia.
  - apply P_inv with r (k - 1).
    assert (PK : prev_line p k = k - 1) by (unfold prev_line; destruct (N.eqb_spec k 0); lia).
    constructor; cbn [a_c a_cur a_pend]; auto.
    + congruence.
    + lia.
    + rewrite R2. auto.
    + intros w j. unfold tnext. rewrite inv_write; auto.
      * rewrite CT, PK, TT. rewrite (lfrom_step p (ent_inv p) (k - 1)) by lia.
        replace (k - 1 + 1) with k by lia. unfold lfrom.
        destruct (inrange p w j && (lnum p w j =? k - 1)) eqn:E; auto.
        apply andb_prop in E. destruct E as [-> E]. apply N.eqb_eq in E.
        destruct (N.leb_spec k (lnum p w j)); auto; lia.
      * left. unfold trans0. rewrite FS, WH'. auto.
      * rewrite CT, PK. lia.
Qed.

Lemma adv_invl : forall s a i r, ph_invl p s a r -> legal p s (a_outst a) i -> ostall2 s i = false ->
  exists a', acyc p a i (output p s i) a' /\ phase p (next p s i) a'.
Proof.
  intros s a i r P L S. destruct P.
  set (c := a_c a) in *.
  assert (O : a_outst a = []) by (eapply outst_cur; eauto).
  pose proof (no_recv p s a i L O) as NRv. rewrite O in L.
  assert (FI : fsm s <> F_INIT) by (rewrite il_fsm; discriminate).
  assert (Q : quiet_t (t1 s) = true) by (rewrite il_t1; auto).
  assert (Q2 : m2_active (t1 s) = false) by (rewrite il_t1; auto).
  pose proof (quiet_evict p s Q) as EV. pose proof (quiet_whc p s Q) as WH.
  assert (RE : i_req_en i = false) by (eapply noreq_msn; eauto).
  assert (MT : mshr_type s = T_INV) by (unfold mshr_type; rewrite il_msr; auto).
  assert (TR : trans0 p s i = TR_REPLAY_INV).
  { unfold trans0, mshr_empty. rewrite il_fsm, WH, MT, il_msn. auto. }
  destruct (m2_quiet_none s i S Q2) as [R2 M2].
  assert (NM : i_mresp_en i = false) by (eapply noresp; eauto).
  assert (CW : cs1_wr p s = false) by (apply cs1_wr_false; rewrite il_t1; auto).
  assert (T1' : t1 (next p s i) = TR_REPLAY_INV) by (rewrite an_t1; auto).
  assert (Q' : quiet_t (t1 (next p s i)) = true) by (rewrite T1'; auto).
  assert (AL : cs1_alloc p s = false) by (apply quiet_alloc; rewrite ?il_t1; auto; discriminate).
  set (f := tl_fin p c r 0).
  assert (FE : f = (mkC (tmap p (ent_inv p) (ct c)) (cd c) (cr c), tl_resp r 0 0))
    by (unfold f, tl_fin; rewrite il_ty; auto).
  exists (mkA (fst f) None [snd f]). split.
  { eexists _, _, _. split; [exact NRv|]. split; [apply send_resp; auto; rewrite app_nil_r; auto|].
    split; [left | unfold o_acc; rewrite RE; reflexivity].
    rewrite il_cur. apply A_done. }
  apply P_idle. constructor; cbn [a_c a_cur a_pend]; auto.
  - rewrite an_fsm by auto. unfold fsm_next. rewrite il_fsm, MT, andb_false_r. auto.
  - rewrite an_msn, AL, il_msn by auto. unfold cs0_dealloc, cs0. rewrite TR. auto.
  - rewrite an_mrv; auto.
  - rewrite an_ctr by auto. unfold ctr_en. rewrite il_fsm, TR. auto.
  - rewrite T1'. auto.
  - rewrite T1'. discriminate.
  - rewrite R2. unfold resp1. rewrite T1', (quiet_evict p _ Q'), (quiet_hit p _ Q').
    cbn [m2_active]. rewrite (proj1 (noresp_data _ _ eq_refl)).
    rewrite q1_2_eq by (unfold cs1_evmux, cs1; rewrite T1'; auto).
    rewrite an_q1, FE by auto. unfold q0, addr0, len0, cs0_admux, cs0, req_mux0, mux_sel0.
    rewrite TR, il_fsm, il_msr. auto.
  - intros. rewrite tram_indep by auto. rewrite il_t, lfrom_0, FE. auto.
  - intros. rewrite dnext_nowr by (apply cs1_wr_false; rewrite T1'; auto).
    rewrite an_dram, dnext_nowr, FE; auto. cbn [fst cd]. apply il_d.
  - intros. rewrite quiet_rep, FE by auto. cbn [fst cr]. apply il_r.
Qed.

(** *** FLUSH *)
Lemma flush_read_line : forall s i k, trans0 p s i = TR_FLUSH_READ -> ctr s = k -> ostall2 s i = false ->
  is_evict1 p s = false ->
  utw1 (next p s i) = lway p k /\ fi1 (next p s i) = lidx p k /\
  tagq (next p s i) (lway p k) = tram s (lway p k) (lidx p k) /\
  (forall w j, tram (next p s i) w j = tram s w j).
Proof.
  intros s i k TR CT S EV.
  assert (U : upd_way_idx0 p s i = k) by (unfold upd_way_idx0; rewrite TR; auto).
  assert (NW : cs0_wr p s i = false) by (eapply cs0_wr_t; [exact TR | auto]).
  split; [|split; [|split]].
  - rewrite an_utw1 by auto. unfold upd_tag_way0, is_ctr_way0, ctr_way0. rewrite TR, U. auto.
  - rewrite an_fi1 by auto. unfold init_idx0. rewrite U. auto.
  - rewrite an_tagq, tdout_next by auto. unfold sram_rd. rewrite NW.
    replace (tag_val0 p s i (lway p k)) with true.
    + cbn [andb negb]. unfold tag_idx0, cs0_idxsel, cs0, init_idx0. rewrite TR, U. auto.
    + unfold tag_val0, is_ctr_way0, ctr_way0. rewrite TR, U. symmetry. apply N.eqb_refl.
  - intros. rewrite tram_next. unfold sram_wr. rewrite NW, andb_false_r. auto.
Qed.

Lemma adv_flstart : forall s a i r, ph_flstart p s a r -> legal p s (a_outst a) i -> ostall2 s i = false ->
  exists a', acyc p a i (output p s i) a' /\ phase p (next p s i) a'.
Proof.
  intros s a i r P L S. destruct P.
  set (c := a_c a) in *.
  pose proof (total_ge2 p W) as G2.
  assert (O : a_outst a = []) by (eapply outst_cur; eauto).
  pose proof (no_recv p s a i L O) as NRv. rewrite O in L.
  assert (FI : fsm s <> F_INIT) by (rewrite fs_fsm; discriminate).
  assert (Q : quiet_t (t1 s) = true) by (rewrite fs_t1; auto).
  assert (Q2 : m2_active (t1 s) = false) by (rewrite fs_t1; auto).
  pose proof (quiet_evict p s Q) as EV. pose proof (quiet_whc p s Q) as WH.
  assert (AL : cs1_alloc p s = true) by (unfold cs1_alloc, cs1; rewrite EV, fs_t1; auto).
  assert (RE : i_req_en i = false) by (eapply noreq_alloc; eauto).
  assert (HF : has_flush_sent1 p s = false) by (unfold has_flush_sent1; rewrite fs_t1; auto).
  assert (TR : trans0 p s i = TR_FLUSH_READ) by (unfold trans0; rewrite fs_fsm, WH, HF; auto).
  destruct (m2_quiet_none s i S Q2) as [R2 M2].
  assert (NM : i_mresp_en i = false) by (eapply noresp; eauto).
  assert (CW : cs1_wr p s = false) by (apply cs1_wr_false; rewrite fs_t1; auto).
  assert (T1' : t1 (next p s i) = TR_FLUSH_READ) by (rewrite an_t1; auto).
  destruct (flush_read_line s i _ TR fs_ctr S EV) as (U & F & TQ & TT).
  assert (LL : last_line p < total_lines p) by (unfold last_line; lia).
  assert (LN0 : (last_line p =? 0) = false) by (apply N.eqb_neq; unfold last_line; lia).
  assert (PK : prev_line p (last_line p) = last_line p - 1) by (unfold prev_line; rewrite LN0; auto).
  assert (CT : ctr (next p s i) = prev_line p (last_line p)).
  { rewrite an_ctr by auto. unfold ctr_en. rewrite fs_fsm, TR. cbn [fsm_eqb trans_eqb orb].
    rewrite ctr_dec_prev by (auto; rewrite fs_ctr; auto). rewrite fs_ctr. auto. }
  assert (FS : fsm (next p s i) = F_FLUSH).
  { rewrite an_fsm by auto. unfold fsm_next. rewrite fs_fsm, HF, fs_ctr, LN0. auto. }
  exists (mkA c (a_cur a) []). split.
  { eexists _, _, _. split; [exact NRv|]. split; [apply send_resp; auto; rewrite app_nil_r; auto|].
    split; [right; reflexivity|]. unfold o_acc. rewrite RE. auto. }
  apply P_flrd with r (last_line p). constructor; [constructor|..]; cbn [a_c a_cur a_pend]; auto.
  - rewrite an_msn, AL, fs_msn by auto. auto.
  - rewrite an_msr, AL by auto. unfold mshr_alloc_in. rewrite fs_q1. auto.
  - rewrite R2. auto.
  - intros. rewrite an_dram, dnext_nowr; auto.
  - intros. rewrite quiet_rep; auto.
  - rewrite FS, LN0. auto.
  - rewrite an_mrv; auto.
  - rewrite an_ev2; auto.
  - rewrite TQ, fs_t. auto.
  - rewrite fs_cur. exists 0. repeat f_equal. rewrite <- N2Nat.inj_succ. f_equal. unfold last_line. lia.
  - intros w j. replace (last_line p + 1) with (total_lines p) by (unfold last_line; lia).
    rewrite tnext_nowr.
    + rewrite TT, fs_t. unfold lfrom. destruct (inrange p w j) eqn:R; auto. cbn [andb].
      unfold inrange in R. apply andb_prop in R. destruct R as [R1 R2'].
      apply N.ltb_lt in R1, R2'. pose proof (lnum_lt p W w j R1 R2').
      destruct (N.leb_spec (total_lines p) (lnum p w j)); auto; lia.
    + destruct (has_flush_sent1 p (next p s i)) eqn:H;
      eapply cs0_wr_t; try (unfold trans0; rewrite FS, (whc_t p), H by (rewrite T1'; discriminate); reflexivity); auto.
Qed.

(** from a finished line [k+1 or none] to reading line [k]: entering [ph_flrd] *)
Lemma enter_flrd : forall s i a r k l, fsm s <> F_INIT ->
  trans0 p s i = TR_FLUSH_READ -> ctr s = k -> k < total_lines p -> ostall2 s i = false ->
  t1 s = TR_FLUSH_READ \/ t1 s = TR_FLUSH_WRITE ->
  fsm s = F_FLUSH -> has_flush_sent1 p s = false -> 
  msn s = 1 -> ms_req (msr s) = mshr_req p r -> cq_type r = T_FLUSH ->
  i_mresp_en i = false ->
  mem2 p (next p s i) = None -> a_pend a = ol (resp2 p (next p s i)) ->
  (forall j, dram s j = cd (a_c a) j) -> (forall j, rep s j = cr (a_c a) j) ->
  a_cur a = Some (mkCur r (flush_reqs p (a_c a) (cq_opq r) (S (N.to_nat k))) [] l) ->
  (forall w j, tram s w j = lfrom p (ent_clean p) (k + 1) (ct (a_c a)) w j) ->
  phase p (next p s i) a.
Proof.
  intros s i a r k l FI TR CT K S T1 FS HF MS MR TY NM M2 PD D R CU T.
  set (c := a_c a) in *.
  assert (Q : quiet_t (t1 s) = true) by (destruct T1 as [-> | ->]; auto).
  pose proof (quiet_evict p s Q) as EV.
  assert (AL : cs1_alloc p s = false) by (apply quiet_alloc; auto; destruct T1 as [-> | ->]; discriminate).
  destruct (flush_read_line s i _ TR CT S EV) as (U & F & TQ & TT).
  assert (T1' : t1 (next p s i) = TR_FLUSH_READ) by (rewrite an_t1; auto).
  assert (FS' : fsm (next p s i) = if k =? 0 then F_REPLAY else F_FLUSH).
  { rewrite an_fsm by auto. unfold fsm_next. rewrite FS, HF, CT. auto. }
  assert (DD : forall j, dram (next p s i) j = cd c j).
  { intros. rewrite an_dram, dnext_nowr; auto. apply cs1_wr_false. destruct T1 as [-> | ->]; auto. }
  assert (CT' : ctr (next p s i) = prev_line p k).
  { rewrite an_ctr by auto. unfold ctr_en. rewrite FS, TR. cbn [fsm_eqb trans_eqb orb].
    rewrite ctr_dec_prev by (auto; rewrite CT; auto). rewrite CT. auto. }
  assert (MS' : msn (next p s i) = 1).
  { rewrite an_msn, AL, MS by auto. unfold cs0_dealloc, cs0. rewrite TR. auto. }
  assert (MR' : ms_req (msr (next p s i)) = mshr_req p r) by (rewrite an_msr, AL; auto).
  assert (TQ' : tagq (next p s i) (lway p k) = ct c (lway p k) (lidx p k)).
  { rewrite TQ, T. unfold lfrom.
    destruct (inrange p (lway p k) (lidx p k) && (k + 1 <=? lnum p (lway p k) (lidx p k))) eqn:E; auto.
    apply andb_prop in E. destruct E as [_ E]. apply N.leb_le in E. rewrite lnum_l in E by auto. lia. }
  apply P_flrd with r k. constructor; [constructor|..]; auto.
  - intros. rewrite quiet_rep; auto.
  - rewrite an_mrv; auto.
  - rewrite an_ev2; auto.
  - eauto.
  - intros w j. fold c. set (s' := next p s i) in *.
    assert (WH' : write_hit_clean p s' = false) by (apply whc_t; rewrite T1'; discriminate).
    assert (LDE : pu_ld p s' (utw1 s') = line_dirty p true (tagq s' (lway p k))).
    { unfold pu_ld, tag_proc_en. rewrite T1', U. unfold s'. rewrite an_ev2, EV by auto. auto. }
    destruct (line_dirty p true (tagq s' (lway p k))) eqn:LD.
    + rewrite tnext_nowr; [rewrite TT, T; auto|].
      eapply cs0_wr_t with (t := TR_FLUSH_WAIT); auto.
      unfold trans0. rewrite WH'. 
      destruct (k =? 0) eqn:K0; rewrite FS'.
      * unfold mshr_empty, mshr_type. rewrite MS', MR'. cbn [mshr_req cq_type]. rewrite TY. cbn.
        unfold prev_flush_done, no_flush_needed1, flush_refill_bypass, mr_ack.
        rewrite LDE, T1'. unfold s'. rewrite an_mrv, NM by auto. auto.
      * unfold has_flush_sent1. rewrite T1', LDE. auto.
    + destruct (k =? 0) eqn:K0.
      * apply N.eqb_eq in K0. unfold tnext. rewrite (flush_write p W s' _ w j k).
        -- rewrite TT, T. rewrite K0. unfold lfrom. change (0 + 1) with 1.
           destruct (inrange p w j && (lnum p w j =? 0)) eqn:E; auto.
           apply andb_prop in E. destruct E as [-> E]. apply N.eqb_eq in E. rewrite E. cbn.
           apply ent_clean_clean.
           assert (LI : inrange p w j && (lnum p w j =? k) = true).
           { rewrite K0, E, N.eqb_refl, andb_true_r. revert TQ'.
             destruct (inrange p w j) eqn:RR; auto. exfalso.
             unfold lnum in E. unfold inrange in RR. apply andb_false_iff in RR.
             pose proof (nblocks_ge2 p W). destruct (wf_assoc p W) as [A|A]; rewrite A in *;
             destruct RR as [RR|RR]; apply N.ltb_ge in RR; nia. }
           rewrite line_is in LI by auto. apply andb_prop in LI. destruct LI as [L1 L2].
           apply N.eqb_eq in L1, L2. subst w j. rewrite <- TQ'.
           unfold line_dirty in LD. cbn in LD. apply negb_false_iff, N.eqb_eq in LD. auto.
        -- right. unfold trans0. rewrite FS', WH'. unfold mshr_empty, mshr_type. rewrite MS', MR'.
           cbn [mshr_req cq_type]. rewrite TY. cbn.
           unfold prev_flush_done, no_flush_needed1. rewrite LDE, T1'. auto.
        -- right. auto.
        -- auto.
        -- auto.
      * rewrite tnext_nowr; [rewrite TT, T; auto|].
        eapply cs0_wr_t with (t := TR_FLUSH_READ); auto.
        unfold trans0. rewrite FS', WH'. unfold has_flush_sent1. rewrite T1', LDE. auto.
Qed.

Lemma lfrom_clean_skip : forall k T w j, k < total_lines p ->
  line_dirty p true (T (lway p k) (lidx p k)) = false ->
  lfrom p (ent_clean p) k T w j = lfrom p (ent_clean p) (k + 1) T w j.
Proof.
  intros k T w j K LD. rewrite lfrom_step by auto.
  destruct (inrange p w j && (lnum p w j =? k)) eqn:E; auto.
  rewrite line_is in E by auto. apply andb_prop in E. destruct E as [E1 E2].
  apply N.eqb_eq in E1, E2. subst. unfold lfrom.
  rewrite lnum_l by auto. destruct (N.leb_spec (k + 1) k); try lia. rewrite andb_false_r.
  apply ent_clean_clean. unfold line_dirty in LD. cbn in LD. apply negb_false_iff, N.eqb_eq in LD. auto.
Qed.

(** the end of a flush: from [REPLAY] to idle *)
Lemma finish_flush : forall s i a a2 r l, fsm s = F_REPLAY -> prev_flush_done p s = true ->
  t1 s = TR_FLUSH_READ \/ t1 s = TR_FLUSH_WRITE ->
  msn s = 1 -> ms_req (msr s) = mshr_req p r -> cq_type r = T_FLUSH -> ctr s = last_line p ->
  i_mresp_en i = false -> i_req_en i = false -> ostall2 s i = false ->
  mem2 p (next p s i) = None -> resp2 p (next p s i) = None ->
  (forall j, dram s j = cd (a_c a) j) -> (forall j, rep s j = cr (a_c a) j) ->
  o_recv a i a -> o_send p a (output p s i) a2 ->
  a2 = mkA (a_c a) (Some (mkCur r [] [] l)) [] ->
  (forall w j, tnext p s w j = lfrom p (ent_clean p) 0 (ct (a_c a)) w j) ->
  exists a', acyc p a i (output p s i) a' /\ phase p (next p s i) a'.
Proof.
  intros s i a a2 r l FS PD T1 MS MR TY CT NM RE S M2 R2 D R RV SN A2 T.
  set (c := a_c a) in *.
  assert (FI : fsm s <> F_INIT) by (rewrite FS; discriminate).
  assert (Q : quiet_t (t1 s) = true) by (destruct T1 as [-> | ->]; auto).
  pose proof (quiet_evict p s Q) as EV. pose proof (quiet_whc p s Q) as WH.
  assert (AL : cs1_alloc p s = false) by (apply quiet_alloc; auto; destruct T1 as [-> | ->]; discriminate).
  assert (MT : mshr_type s = T_FLUSH) by (unfold mshr_type; rewrite MR; auto).
  assert (TR : trans0 p s i = TR_REPLAY_FLUSH).
  { unfold trans0, mshr_empty. rewrite FS, WH, MT, MS, PD. auto. }
  assert (T1' : t1 (next p s i) = TR_REPLAY_FLUSH) by (rewrite an_t1; auto).
  assert (Q' : quiet_t (t1 (next p s i)) = true) by (rewrite T1'; auto).
  set (f := tl_fin p c r l).
  assert (FE : f = (mkC (tmap p (ent_clean p) (ct c)) (cd c) (cr c), tl_resp r 0 0))
    by (unfold f, tl_fin; rewrite TY; auto).
  exists (mkA (fst f) None [snd f]). split.
  { eexists _, _, _. split; [exact RV|]. split; [exact SN|].
    split; [left | unfold o_acc; rewrite RE; reflexivity].
    subst a2. apply A_done. }
  apply P_idle. constructor; cbn [a_c a_cur a_pend]; auto.
  - rewrite an_fsm by auto. unfold fsm_next, mshr_empty. rewrite FS, MT, MS, PD. auto.
  - rewrite an_msn, AL, MS by auto. unfold cs0_dealloc, cs0. rewrite TR. auto.
  - rewrite an_mrv; auto.
  - rewrite an_ctr by auto. unfold ctr_en. rewrite FS, TR. auto.
  - rewrite T1'. auto.
  - rewrite T1'. discriminate.
  - rewrite R2. unfold resp1. rewrite T1', (quiet_evict p _ Q'), (quiet_hit p _ Q').
    cbn [m2_active]. rewrite (proj2 (noresp_data _ _ eq_refl)).
    rewrite q1_2_eq by (unfold cs1_evmux, cs1; rewrite EV || idtac; rewrite T1', (quiet_evict p _ Q'); auto).
    rewrite an_q1, FE by auto. unfold q0, addr0, len0, cs0_admux, cs0, req_mux0, mux_sel0.
    rewrite TR, FS, MR. auto.
  - intros. rewrite tram_indep by auto. rewrite T, lfrom_0, FE. auto.
  - intros. rewrite dnext_nowr by (apply cs1_wr_false; rewrite T1'; auto).
    rewrite an_dram, dnext_nowr, FE; auto. cbn [fst cd]. apply D.
    apply cs1_wr_false. destruct T1 as [-> | ->]; auto.
  - intros. rewrite quiet_rep, FE by auto. cbn [fst cr]. apply R.
Qed.

Lemma adv_flrd : forall s a i r k, ph_flrd p s a r k -> legal p s (a_outst a) i -> ostall2 s i = false ->
  exists a', acyc p a i (output p s i) a' /\ phase p (next p s i) a'.
Proof.
  intros s a i r k P L S. destruct P. destruct fr_c. destruct fr_cur as (l & CU).
  set (c := a_c a) in *.
  pose proof (total_ge2 p W) as G2.
  assert (O : a_outst a = []) by (eapply outst_cur; eauto).
  pose proof (no_recv p s a i L O) as NRv. rewrite O in L.
  assert (FI : fsm s <> F_INIT) by (rewrite fr_fsm; destruct (k =? 0); discriminate).
  assert (Q : quiet_t (t1 s) = true) by (rewrite fl_t1; auto).
  pose proof (quiet_evict p s Q) as EV. pose proof (quiet_whc p s Q) as WH.
  assert (AL : cs1_alloc p s = false) by (apply quiet_alloc; auto; rewrite fl_t1; discriminate).
  assert (RE : i_req_en i = false) by (eapply noreq_msn; eauto).
  assert (NM : i_mresp_en i = false) by (eapply noresp; eauto).
  assert (EN : tag_proc_en s = true) by (unfold tag_proc_en; rewrite fr_ev2, fl_t1; auto).
  assert (LDE : pu_ld p s (utw1 s) = line_dirty p true (ct c (lway p k) (lidx p k))).
  { unfold pu_ld. rewrite EN, fr_utw, fr_tagq. auto. }
  assert (HF : has_flush_sent1 p s = line_dirty p true (ct c (lway p k) (lidx p k))).
  { unfold has_flush_sent1. rewrite fl_t1, LDE. auto. }
  assert (MT : mshr_type s = T_FLUSH) by (unfold mshr_type; rewrite fl_msr; auto).
  assert (SND : o_send p a (output p s i) (mkA c (a_cur a) [])).
  { apply send_resp; auto. rewrite app_nil_r; auto. }
  assert (R2 : resp2 p (next p s i) = None).
  { rewrite an_resp2, fl_t1, EV by auto. auto. }
  assert (CW : cs1_wr p s = false) by (apply cs1_wr_false; rewrite fl_t1; auto).
  assert (FRQ : flush_reqs p c (cq_opq r) (Datatypes.S (N.to_nat k)) =
     (if line_dirty p true (ct c (lway p k) (lidx p k)) then [flush_req p c (cq_opq r) k] else []) ++
     flush_reqs p c (cq_opq r) (N.to_nat k)).
  { cbn [flush_reqs]. rewrite N2Nat.id. auto. }
  rewrite FRQ in CU.
  destruct (line_dirty p true (ct c (lway p k) (lidx p k))) eqn:LD.
  - (* write back *)
    assert (TR : trans0 p s i = TR_FLUSH_WAIT).
    { unfold trans0. rewrite WH, fr_fsm. destruct (k =? 0) eqn:K0.
      - unfold mshr_empty. rewrite fl_msn, MT. cbn.
        unfold prev_flush_done, no_flush_needed1, flush_refill_bypass, mr_ack. rewrite LDE, fl_t1, fr_mrv. auto.
      - rewrite HF. auto. }
    assert (T1' : t1 (next p s i) = TR_FLUSH_WAIT) by (rewrite an_t1; auto).
    exists (mkA c (a_cur a) []). split.
    { eexists _, _, _. split; [exact NRv|]. split; [exact SND|].
      split; [right; reflexivity|]. unfold o_acc. rewrite RE. auto. }
    assert (MV' : mrv (next p s i) = false) by (rewrite an_mrv; auto).
    assert (FS' : fsm (next p s i) = F_FLUSH_WAIT).
    { rewrite an_fsm by auto. unfold fsm_next. rewrite fr_fsm. destruct (k =? 0) eqn:K0.
      - unfold mshr_empty. rewrite fl_msn, MT. cbn.
        unfold prev_flush_done, no_flush_needed1, flush_refill_bypass, mr_ack. rewrite LDE, fl_t1, fr_mrv. auto.
      - rewrite HF. auto. }
    apply P_flwait with r k. constructor; [constructor|..]; cbn [a_c a_cur a_pend]; auto.
    + rewrite an_ctr by auto. unfold ctr_en. rewrite fr_fsm, TR. destruct (k =? 0); auto.
    + rewrite an_msn, AL, fl_msn by auto. unfold cs0_dealloc, cs0. rewrite TR. auto.
    + rewrite an_msr, AL by auto. auto.
    + rewrite R2. auto.
    + intros. rewrite an_dram, dnext_nowr; auto.
    + intros. rewrite quiet_rep; auto.
    + left. exists (cq_opq (q1 s)), (flush_req p c (cq_opq r) k), l.
      split; [|split; [|split; [|split; [|split]]]]; auto.
      * rewrite an_mem2, fl_t1, HF, EV by auto. unfold m2_mem.
        assert (WY : way_offset1 p s = lway p k) by (unfold way_offset1; rewrite fl_t1; auto).
        assert (EM : cs1_evmux p s = true) by (unfold cs1_evmux, cs1; rewrite fl_t1, EV; auto).
        assert (AD : cq_addr (q1_2 p s) = mk_addr p (te_tag p (ct c (lway p k) (lidx p k))) (lidx p k) 0).
        { unfold q1_2, addr1_2. rewrite EM. cbn [cq_addr]. unfold evict_addr1, ev_idx1, flush_idx_sel1.
          rewrite fl_t1. cbn [trans_eqb orb]. rewrite WY, fr_tagq, fr_fi. auto. }
        assert (WM : write_mask1 p s = te_dty p (ct c (lway p k) (lidx p k))).
        { unfold write_mask1, pu_ent, pu_entry. rewrite WY, EN, fr_tagq. auto. }
        assert (DD : ddnext p s = cd c (indexer p (lidx p k) (lway p k))).
        { rewrite ddnext_rd; auto.
          - rewrite fl_d. f_equal. unfold drow1. change (addr1_2 p s) with (cq_addr (q1_2 p s)).
            rewrite AD, WY, a_idx_mk; auto. rewrite <- (nblocks_pow p W). apply lidx_lt; auto.
          - unfold cs1_val, cs1. rewrite fl_t1, EV. auto. }
        rewrite AD, WM, DD. unfold flush_req, line_addr. auto.
      * intros w j. rewrite tnext_nowr.
        -- rewrite tram_indep by auto. auto.
        -- eapply cs0_wr_t with (t := TR_FLUSH_WAIT); auto.
           unfold trans0, mr_ack. rewrite FS', MV', whc_t by (rewrite T1'; discriminate). auto.
  - (* clean line *)
    cbn [app] in CU.
    assert (M2 : mem2 p (next p s i) = None).
    { rewrite an_mem2, fl_t1, HF, EV by auto. auto. }
    assert (TN : forall w j, tnext p s w j = lfrom p (ent_clean p) k (ct c) w j).
    { intros. rewrite fr_t. symmetry. apply lfrom_clean_skip; auto. }
    rewrite CU in SND.
    destruct (N.eqb_spec k 0) as [K0|K0].
    + subst k. cbn [N.to_nat flush_reqs] in CU, SND.
      eapply (finish_flush s i a (mkA c (Some (mkCur r [] [] l)) []) r l); eauto.
      unfold prev_flush_done, no_flush_needed1. rewrite fl_t1, LDE. auto.
    + assert (TR : trans0 p s i = TR_FLUSH_READ).
      { unfold trans0. rewrite WH, fr_fsm, HF. auto. }
      exists (mkA c (Some (mkCur r (flush_reqs p c (cq_opq r) (N.to_nat k)) [] l)) []). split.
      { eexists _, _, _. split; [exact NRv|]. split; [exact SND|].
        split; [right; reflexivity|]. unfold o_acc. rewrite RE. auto. }
      assert (PK : prev_line p k = k - 1) by (unfold prev_line; destruct (N.eqb_spec k 0); lia).
      eapply (enter_flrd s i _ r (k - 1) l); cbn [a_c a_cur a_pend]; eauto.
      * congruence.
      * lia.
      * rewrite R2. auto.
      * repeat f_equal. lia.
      * intros w j. replace (k - 1 + 1) with k by lia. rewrite <- TN.
        rewrite tnext_nowr; auto. eapply cs0_wr_t with (t := TR_FLUSH_READ); auto.
        unfold trans0. rewrite WH, fr_fsm, HF. auto.
Qed.

Lemma adv_flwait : forall s a i r k, ph_flwait p s a r k -> legal p s (a_outst a) i -> ostall2 s i = false ->
  exists a', acyc p a i (output p s i) a' /\ phase p (next p s i) a'.
Proof.
  intros s a i r k P L S. destruct P. destruct fw_c.
  set (c := a_c a) in *.
  pose proof (total_ge2 p W) as G2.
  assert (FI : fsm s <> F_INIT) by (rewrite fw_fsm; discriminate).
  assert (Q : quiet_t (t1 s) = true) by (rewrite fl_t1; auto).
  pose proof (quiet_evict p s Q) as EV. pose proof (quiet_whc p s Q) as WH.
  assert (AL : cs1_alloc p s = false) by (apply quiet_alloc; auto; rewrite fl_t1; discriminate).
  assert (RE : i_req_en i = false) by (eapply noreq_msn; eauto).
  assert (MT : mshr_type s = T_FLUSH) by (unfold mshr_type; rewrite fl_msr; auto).
  assert (CW : cs1_wr p s = false) by (apply cs1_wr_false; rewrite fl_t1; auto).
  destruct (m2_quiet_none s i S) as [R2 M2]; [rewrite fl_t1; auto|].
  destruct (out_nostall p s i S) as [O1 O2].
  (* staying *)
  assert (TRW : mr_ack s = false -> trans0 p s i = TR_FLUSH_WAIT).
  { intros MA. unfold trans0. rewrite WH, fw_fsm, MA. auto. }
  assert (STAY : mr_ack s = false -> forall a', a_c a' = c -> a_pend a' = [] ->
    ((exists m l, mrv (next p s i) = false /\ mq_type m = T_WRITE /\
       a_cur a' = Some (mkCur r (flush_reqs p c (cq_opq r) (N.to_nat k)) [m] l)) \/
     (exists l, mrv (next p s i) = true /\ mr_type (mrm (next p s i)) = T_WRITE /\
       a_cur a' = Some (mkCur r (flush_reqs p c (cq_opq r) (N.to_nat k)) [] l))) ->
    (forall w j, tnext p s w j = lfrom p (ent_clean p) (k + 1) (ct c) w j) ->
    phase p (next p s i) a').
  { intros MA a' CA PA CU T. specialize (TRW MA).
    assert (T1' : t1 (next p s i) = TR_FLUSH_WAIT) by (rewrite an_t1; auto).
    assert (FS' : fsm (next p s i) = F_FLUSH_WAIT).
    { rewrite an_fsm by auto. unfold fsm_next. rewrite fw_fsm, MA. auto. }
    assert (WH' : write_hit_clean p (next p s i) = false) by (apply whc_t; rewrite T1'; discriminate).
    assert (TT : forall w j, tram (next p s i) w j = lfrom p (ent_clean p) (k + 1) (ct c) w j).
    { intros. rewrite tram_indep; auto. }
    assert (CT' : ctr (next p s i) = prev_line p k).
    { rewrite an_ctr by auto. unfold ctr_en. rewrite fw_fsm, TRW. auto. }
    assert (T2' : t2 (next p s i) = TR_FLUSH_WAIT) by (rewrite an_t2; auto).
    apply P_flwait with r k. constructor; [constructor|..]; rewrite ?CA, ?PA; auto.
    + rewrite an_msn, AL, fl_msn by auto. unfold cs0_dealloc, cs0. rewrite TRW. auto.
    + rewrite an_msr, AL by auto. auto.
    + rewrite R2. auto.
    + intros. rewrite an_dram, dnext_nowr; auto.
    + intros. rewrite quiet_rep; auto.
    + right. destruct CU as [(m & l & MV & MW & CU) | (l & MV & MW & CU)].
      * left. exists m, l. split; [|split; [|split; [|split]]]; auto.
        intros w j. rewrite tnext_nowr; auto.
        eapply cs0_wr_t with (t := TR_FLUSH_WAIT); auto.
        unfold trans0, mr_ack. rewrite FS', WH', MV. auto.
      * right. exists l. split; [|split; [|split; [|split]]]; auto.
        intros w j. unfold tnext. rewrite (flush_write p W (next p s i) _ w j k); auto.
        -- rewrite TT, (lfrom_step p _ k) by auto. unfold lfrom.
           destruct (inrange p w j && (lnum p w j =? k)) eqn:E; auto.
           apply andb_prop in E. destruct E as [-> E]. apply N.eqb_eq in E. rewrite E.
           destruct (N.leb_spec (k + 1) k); auto; lia.
        -- left. unfold trans0, mr_ack. rewrite FS', WH', MV, MW. auto.
        -- left. unfold tag_proc_en. rewrite T1'. apply andb_false_r. }
  destruct fw_cur as [(opq & e & l & M & R2s & MV & E & CU & T) | [(m & l & T2 & MV & MW & CU & T) | (l & T2 & MV & MW & CU & T)]].
  - (* send *)
    assert (MA : mr_ack s = false) by (unfold mr_ack; rewrite MV; auto).
    assert (O : a_outst a = []) by (eapply outst_cur; eauto).
    pose proof (no_recv p s a i L O) as NRv. rewrite O in L.
    pose proof (noresp p s i L) as NM.
    exists (mkA c (Some (mkCur r (flush_reqs p c (cq_opq r) (N.to_nat k)) [flush_req p c opq k] l)) []). split.
    { eexists _, _, _. split; [exact NRv|]. split; [|split; [right; reflexivity|unfold o_acc; rewrite RE; reflexivity]].
      unfold o_send. rewrite O1, O2, M, R2s.
      destruct a as [c0 u pd]. cbn [a_c a_cur a_pend] in c, CU, fl_pend. subst u. rewrite R2s in fl_pend. cbn in fl_pend. subst pd.
      apply (A_send c r e (flush_req p c opq k) _ [] l []); auto. subst e.
      unfold mreq_match, flush_req. repeat split; auto. tauto. }
    apply STAY; auto. left. eexists _, _. split; [|split; [|reflexivity]]; auto. rewrite an_mrv; auto.
  - (* waiting for the acknowledgement *)
    assert (MA : mr_ack s = false) by (unfold mr_ack; rewrite MV; auto).
    destruct (m2_inactive p s) as [R2s M2s]; [rewrite T2; auto|].
    erewrite outst_cur in L by eauto.
    destruct a as [c0 u pd]. cbn [a_c a_cur a_pend] in c, CU, fl_pend. subst u. rewrite R2s in fl_pend. cbn in fl_pend. subst pd.
    destruct (i_mresp_en i) eqn:ME.
    + destruct (lg_resp _ _ _ _ L ME) as (m' & o' & EQ & TY). inversion EQ; subst m' o'.
      eexists. split.
      { eexists _, _, _. split; [unfold o_recv; rewrite ME; constructor; auto|].
        split; [unfold o_send; rewrite O1, O2, M2s, R2s; reflexivity|].
        split; [right; reflexivity|unfold o_acc; rewrite RE; reflexivity]. }
      apply STAY; auto. right. eexists. split; [|split; [|reflexivity]].
      * rewrite an_mrv; auto.
      * rewrite an_mrm by auto. congruence.
    + eexists. split.
      { eexists _, _, _. split; [unfold o_recv; rewrite ME; reflexivity|].
        split; [unfold o_send; rewrite O1, O2, M2s, R2s; reflexivity|].
        split; [right; reflexivity|unfold o_acc; rewrite RE; reflexivity]. }
      apply STAY; auto. left. eexists _, _. split; [|split; [|reflexivity]]; auto. rewrite an_mrv; auto.
  - (* acknowledged *)
    assert (MA : mr_ack s = true) by (unfold mr_ack; rewrite MV, MW; auto).
    assert (O : a_outst a = []) by (eapply outst_cur; eauto).
    pose proof (no_recv p s a i L O) as NRv. rewrite O in L.
    pose proof (noresp p s i L) as NM.
    destruct (m2_inactive p s) as [R2s M2s]; [rewrite T2; auto|].
    assert (TR : trans0 p s i = TR_FLUSH_WRITE) by (unfold trans0; rewrite WH, fw_fsm, MA; auto).
    assert (T1' : t1 (next p s i) = TR_FLUSH_WRITE) by (rewrite an_t1; auto).
    exists a. split.
    { eexists _, _, _. split; [exact NRv|].
      split; [unfold o_send; rewrite O1, O2, M2s, R2s; reflexivity|].
      split; [right; reflexivity|unfold o_acc; rewrite RE; reflexivity]. }
    assert (FS' : fsm (next p s i) = if k =? 0 then F_REPLAY else F_FLUSH).
    { rewrite an_fsm by auto. unfold fsm_next. rewrite fw_fsm, MA, fl_ctr.
      rewrite trunc_small by (rewrite <- (total_pow p W); lia).
      unfold prev_line, last_line. destruct (N.eqb_spec k 0) as [K0|K0]; [rewrite N.eqb_refl; auto|].
      destruct (N.eqb_spec (k - 1) (total_lines p - 1)); auto. lia. }
    assert (WH' : write_hit_clean p (next p s i) = false) by (apply whc_t; rewrite T1'; discriminate).
    assert (TT : forall w j, tram (next p s i) w j = lfrom p (ent_clean p) k (ct c) w j).
    { intros. rewrite tram_indep; auto. }
    assert (CT' : ctr (next p s i) = prev_line p k).
    { rewrite an_ctr by auto. unfold ctr_en. rewrite fw_fsm, TR. auto. }
    assert (MS' : msn (next p s i) = 1).
    { rewrite an_msn, AL, fl_msn by auto. unfold cs0_dealloc, cs0. rewrite TR. auto. }
    assert (MR' : ms_req (msr (next p s i)) = mshr_req p r) by (rewrite an_msr, AL; auto).
    assert (T2' : t2 (next p s i) = TR_FLUSH_WAIT) by (rewrite an_t2; auto).
    apply P_flwr with r k. constructor; [constructor|..]; auto.
    + rewrite R2. rewrite fl_pend, R2s. auto.
    + intros. rewrite an_dram, dnext_nowr; auto.
    + intros. rewrite quiet_rep; auto.
    + rewrite an_mrv; auto.
    + eauto.
    + intros w j. fold c. destruct (N.eqb_spec k 0) as [K0|K0].
      * unfold tnext. rewrite (flush_write p W (next p s i) _ w j k); auto.
        -- rewrite TT. unfold lfrom. subst k.
           destruct (inrange p w j && (lnum p w j =? 0)) eqn:E; auto.
           apply andb_prop in E. destruct E as [-> E]. rewrite (proj2 (N.leb_le 0 _)) by lia. cbn.
           apply ent_clean_idem.
        -- right. unfold trans0. rewrite FS', WH'. unfold mshr_empty, mshr_type. rewrite MS', MR'.
           cbn [mshr_req cq_type]. rewrite fl_ty. cbn. unfold prev_flush_done, flush_refill_bypass.
           rewrite T1'. cbn. rewrite orb_true_r. auto.
        -- left. unfold tag_proc_en. rewrite T1'. apply andb_false_r.
      * rewrite tnext_nowr; auto. eapply cs0_wr_t with (t := TR_FLUSH_READ); auto.
        unfold trans0, has_flush_sent1. rewrite FS', WH', T1'. auto.
Qed.

Lemma adv_flwr : forall s a i r k, ph_flwr p s a r k -> legal p s (a_outst a) i -> ostall2 s i = false ->
  exists a', acyc p a i (output p s i) a' /\ phase p (next p s i) a'.
Proof.
  intros s a i r k P L S. destruct P. destruct fx_c. destruct fx_cur as (l & CU).
  pose proof (total_ge2 p W) as G2.
  assert (O : a_outst a = []) by (eapply outst_cur; eauto).
  pose proof (no_recv p s a i L O) as NRv. rewrite O in L.
  pose proof (noresp p s i L) as NM.
  assert (RE : i_req_en i = false) by (eapply noreq_msn; eauto).
  assert (Q : quiet_t (t1 s) = true) by (rewrite fl_t1; auto).
  pose proof (quiet_whc p s Q) as WH.
  destruct (m2_inactive p s) as [R2s M2s]; [rewrite fx_t2; auto|].
  destruct (m2_quiet_none s i S) as [R2 M2]; [rewrite fl_t1; auto|].
  destruct (out_nostall p s i S) as [O1 O2].
  assert (SN : o_send p a (output p s i) a) by (unfold o_send; rewrite O1, O2, M2s, R2s; reflexivity).
  rewrite R2s in fl_pend. cbn in fl_pend.
  destruct (N.eqb_spec k 0) as [K0|K0].
  - subst k. cbn [N.to_nat flush_reqs] in CU.
    eapply (finish_flush s i a a r l); eauto.
    + unfold prev_flush_done, flush_refill_bypass. rewrite fl_t1. cbn. rewrite orb_true_r. auto.
    + destruct a as [c u pd]. cbn in *. subst. auto.
  - assert (HF : has_flush_sent1 p s = false) by (unfold has_flush_sent1; rewrite fl_t1; auto).
    assert (TR : trans0 p s i = TR_FLUSH_READ) by (unfold trans0; rewrite WH, fx_fsm, HF; auto).
    exists a. split.
    { eexists _, _, _. split; [exact NRv|]. split; [exact SN|].
      split; [right; reflexivity|]. unfold o_acc. rewrite RE. auto. }
    assert (PK : prev_line p k = k - 1) by (unfold prev_line; destruct (N.eqb_spec k 0); lia).
    eapply (enter_flrd s i _ r (k - 1) l); eauto.
    + rewrite fx_fsm; discriminate.
    + congruence.
    + lia.
    + rewrite R2. auto.
    + rewrite CU. repeat f_equal. lia.
    + intros w j. replace (k - 1 + 1) with k by lia. rewrite <- fx_t.
      rewrite tnext_nowr; auto. eapply cs0_wr_t with (t := TR_FLUSH_READ); auto.
      unfold trans0. rewrite WH, fx_fsm, HF. auto.
Qed.

End A.
