(** Advancing cycles: waiting for memory, refill and replay. *)
From Coq Require Import NArith List Bool Lia.
From Verif Require Import Bits Params Msg Units Rtl Tl ParamsProofs RtlLemmas RefineInv RefineStall RefineReq RefineAdv1.
Import ListNotations.
Open Scope N_scope.

Section A.
Variable p : params.
Hypothesis W : wf_params p.

Lemma noreq_msn : forall s out i, legal p s out i -> msn s = 1 -> i_req_en i = false.
Proof.
  intros s out i L M. destruct (i_req_en i) eqn:E; auto. destruct (lg_req _ _ _ _ L E) as [R _].
  apply req_rdy_inv in R. destruct R as (_ & _ & R & _). rewrite M in R. discriminate.
Qed.

Lemma m2_inactive : forall s, m2_active (t2 s) = false -> resp2 p s = None /\ mem2 p s = None.
Proof.
  intros s H. split.
  - rewrite resp2_eq, H. auto.
  - unfold mem2, output, memreq_en, cs2. destruct (t2 s); auto; discriminate.
Qed.

Lemma amo_rw : forall t, is_rw t || is_amo t = true -> is_rw t = negb (is_amo t).
Proof.
  intros t H. destruct (req_trans_cases _ H) as [(_ & _ & -> & ->) | [(_ & _ & -> & ->) | (-> & _ & ->)]]; auto.
Qed.

Lemma main_not_write : forall c r, is_rw (cq_type r) || is_amo (cq_type r) = true ->
  mq_type (main_req p c r) <> T_WRITE.
Proof.
  intros c r H. unfold main_req, tl_isamo. destruct (is_amo (cq_type r)) eqn:A; cbn; [|discriminate].
  intro E. rewrite E in A. discriminate.
Qed.

Lemma ty_not_flush : forall t, is_rw t || is_amo t = true -> t <> T_FLUSH /\ t <> T_INV.
Proof. intros t H. split; intro E; rewrite E in H; discriminate. Qed.

Lemma adv_wait : forall s a i r, ph_wait p s a r -> legal p s (a_outst a) i -> ostall2 s i = false ->
  exists a', acyc p a i (output p s i) a' /\ phase p (next p s i) a'.
Proof.
  intros s a i r P L S. destruct P.
  set (c := a_c a) in *.
  assert (FI : fsm s <> F_INIT) by (rewrite wt_fsm; discriminate).
  assert (TI : t1 s <> TR_CACHE_INIT) by (rewrite wt_t1; discriminate).
  pose proof (noreq_msn _ _ _ L wt_msn) as RE.
  assert (Q : quiet_t (t1 s) = true) by (rewrite wt_t1; auto).
  pose proof (quiet_evict p s Q) as EV. pose proof (quiet_whc p s Q) as WH.
  assert (AL : cs1_alloc p s = false) by (apply quiet_alloc; rewrite ?wt_t1; auto; discriminate).
  assert (DN : forall k, dnext p s k = cd c k).
  { intros. rewrite dnext_nowr; auto. apply cs1_wr_false. rewrite wt_t1. auto. }
  assert (MT : mshr_type s = cq_type r) by (unfold mshr_type; rewrite wt_msr; auto).
  destruct (out_nostall p s i S) as [O1 O2].
  destruct (ty_not_flush _ wt_ty) as [NF NI].
  (* staying in the wait phase *)
  assert (STAY : mr_val s = false -> forall a', a_c a' = c -> a_pend a' = [] ->
     ((mr_val (next p s i) = false /\ exists out m l, acks out /\ mq_type m <> T_WRITE /\
          a_cur a' = Some (mkCur r [] (out ++ [m]) l)) \/
      (mr_val (next p s i) = true /\ a_cur a' = Some (mkCur r [] [] (mr_data (mrm (next p s i)))))) ->
     phase p (next p s i) a').
  { intros MV a' CA PA CU. 
    assert (TR : trans0 p s i = TR_INVALID) by (apply trans0_ready_idle; auto).
    apply P_wait with r. constructor; rewrite ?CA; auto.
    - rewrite an_fsm by auto. unfold fsm_next. rewrite wt_fsm, MV, RE, andb_false_r. auto.
    - rewrite an_msn, AL, wt_msn by auto. unfold cs0_dealloc, cs0. rewrite TR. auto.
    - rewrite an_msr, AL by auto. auto.
    - rewrite an_ctr by auto. unfold ctr_en. rewrite wt_fsm, TR. auto.
    - rewrite an_t1; auto.
    - intros. rewrite tram_indep, tnext_invalid by (auto; apply trans0_ready_idle; auto). auto.
    - intros. rewrite quiet_rep; auto.
    - right. assert (T2 : t2 (next p s i) = TR_INVALID) by (rewrite an_t2; auto).
      destruct CU as [(M & X) | (M & X)]; [left | right]; split; auto. }
  assert (MV' : mr_val (next p s i) = i_mresp_en i && negb (mr_type (i_mresp i) =? T_WRITE)).
  { unfold mr_val. rewrite an_mrv, an_mrm by auto. auto. }
  destruct wt_cur as [(M2 & R2 & MV & out & l & AK & CU) | [(T2 & MV & out & m & l & AK & MN & CU) | (T2 & MV & CU)]].
  - (* sending the main request *)
    erewrite outst_cur in L by eauto. destruct a as [c0 u pd]. cbn in c, CU, wt_pend. subst u pd.
    assert (X : exists out' l', acks out' /\ mr_val (next p s i) = false /\
        o_recv (mkA c (Some (mkCur r [main_req p c r] out l)) []) i (mkA c (Some (mkCur r [main_req p c r] out' l')) [])).
    { destruct (i_mresp_en i) eqn:ME.
      - destruct (lg_resp _ _ _ _ L ME) as (m & out' & -> & TY). inversion AK; subst.
        exists out', (mr_data (i_mresp i)). split; auto. split.
        + rewrite MV', TY, H1. auto.
        + unfold o_recv. rewrite ME. constructor; auto.
      - exists out, l. split; auto. split; [rewrite MV'; auto|]. unfold o_recv. rewrite ME. auto. }
    destruct X as (out' & l' & AK' & MVn & RV).
    eexists. split.
    { eexists _, (mkA c (Some (mkCur r [] (out' ++ [main_req p c r]) l')) []), _.
      split; [exact RV|]. split; [|split; [right; reflexivity|unfold o_acc; rewrite RE; reflexivity]].
      unfold o_send. rewrite O1, O2, M2, R2. apply A_send; auto; [|tauto].
      unfold mreq_match. repeat split; auto. }
    apply STAY; auto. left. split; auto. eexists _, _, _. cbn. split; [|split; [|reflexivity]]; auto.
    apply main_not_write; auto.
  - (* waiting *)
    destruct (m2_inactive s) as [R2 M2]; [rewrite T2; auto|].
    erewrite outst_cur in L by eauto. destruct a as [c0 u pd]. cbn in c, CU, wt_pend. subst u pd.
    destruct (i_mresp_en i) eqn:ME.
    + destruct (lg_resp _ _ _ _ L ME) as (x & out' & E & TY).
      exists (mkA c (Some (mkCur r [] out' (mr_data (i_mresp i)))) []). split.
      { eexists _, _, _.
        split. { unfold o_recv. rewrite ME, E. constructor; auto. }
        split; [unfold o_send; rewrite O1, O2, M2, R2; reflexivity|].
        split; [right; reflexivity|]. unfold o_acc. rewrite RE. auto. }
      apply STAY; auto. cbn [a_cur]. destruct out as [|y out].
      * cbn in E. inversion E; subst. right. split.
        -- rewrite MV', TY. cbn. apply negb_true_iff, N.eqb_neq. auto.
        -- rewrite an_mrm by auto. auto.
      * cbn in E. inversion E; subst. inversion AK; subst. left. split.
        -- rewrite MV', TY, H1. auto.
        -- eexists _, _, _. split; [|split; [|reflexivity]]; auto.
    + exists (mkA c (Some (mkCur r [] (out ++ [m]) l)) []). split.
      { eexists _, _, _.
        split. { unfold o_recv. rewrite ME. reflexivity. }
        split; [unfold o_send; rewrite O1, O2, M2, R2; reflexivity|].
        split; [right; reflexivity|]. unfold o_acc. rewrite RE. auto. }
      apply STAY; auto. left. split; [rewrite MV'; auto|]. eexists _, _, _. cbn. split; [|split; [|reflexivity]]; auto.
  - (* answer here *)
    destruct (m2_inactive s) as [R2 M2]; [rewrite T2; auto|].
    erewrite outst_cur in L by eauto. pose proof (noresp p s i L) as NM.
    assert (MX : mux_sel0 s = true).
    { unfold mux_sel0. unfold mr_val in MV. apply andb_prop in MV. destruct MV as [-> _]. apply orb_true_r. }
    assert (RM : req_mux0 s i = mshr_req p r) by (unfold req_mux0; rewrite MX, wt_msr; auto).
    destruct (is_amo (cq_type r)) eqn:A.
    + (* AMO: replay *)
      assert (TR : trans0 p s i = TR_REPLAY_AMO).
      { unfold trans0, mshr_empty. rewrite wt_fsm, WH, MV, MT, wt_msn, A. cbn [andb negb N.eqb].
        destruct (N.eqb_spec (cq_type r) T_WRITE) as [E|E]; [rewrite E in A; discriminate|].
        destruct (N.eqb_spec (cq_type r) T_READ) as [E'|E']; [rewrite E' in A; discriminate|]. auto. }
      set (f := tl_fin p c r (mr_data (mrm s))).
      assert (FE : f = (mkC (tl_amo_tag p c r (ct c)) (cd c) (tl_crep p c r), tl_resp r 0 (slice (mr_data (mrm s)) 0 32))).
      { unfold f, tl_fin, tl_isamo. rewrite A.
        destruct (N.eqb_spec (cq_type r) T_INV) as [E|E]; [congruence|].
        destruct (N.eqb_spec (cq_type r) T_FLUSH) as [E'|E']; [congruence|]. auto. }
      assert (T1' : t1 (next p s i) = TR_REPLAY_AMO) by (rewrite an_t1; auto).
      assert (Q' : quiet_t (t1 (next p s i)) = true) by (rewrite T1'; auto).
      exists (mkA (fst f) None [snd f]). split.
      { eexists a, a, (mkA (fst f) None [snd f]).
        split. { unfold o_recv. rewrite NM. reflexivity. }
        split; [unfold o_send; rewrite O1, O2, M2, R2; reflexivity|].
        split; [|unfold o_acc; rewrite RE; auto]. left.
        destruct a as [c0 u pd]. cbn in c, CU, wt_pend. subst u pd. apply A_done. }
      apply P_idle. constructor; cbn [a_c a_cur a_pend]; auto.
      * rewrite an_fsm by auto. unfold fsm_next. rewrite wt_fsm, RE, andb_false_r, MT.
        destruct (N.eqb_spec (cq_type r) T_WRITE) as [E|E]; [rewrite E in A; discriminate|].
        destruct (N.eqb_spec (cq_type r) T_READ) as [E'|E']; [rewrite E' in A; discriminate|].
        rewrite andb_false_r. auto.
      * rewrite an_msn, AL, wt_msn by auto. unfold cs0_dealloc, cs0. rewrite TR. auto.
      * rewrite an_mrv; auto.
      * rewrite an_ctr by auto. unfold ctr_en. rewrite wt_fsm, TR. auto.
      * rewrite T1'. auto.
      * rewrite T1'. discriminate.
      * rewrite an_mem2 by auto. rewrite wt_t1. auto.
      * rewrite an_resp2, wt_t1 by auto. cbn [m2_active ol app]. unfold resp1.
        rewrite T1', (quiet_evict p _ Q'), (quiet_hit p _ Q'). cbn [m2_active m2_resp ol].
        rewrite q1_2_eq by (unfold cs1_evmux, cs1; rewrite T1'; auto).
        rewrite an_q1 by auto. unfold q0, addr0, len0, data0, cs0_admux, cs0_wdmux, cs0. rewrite TR, RM, FE. auto.
      * intros w k. rewrite tram_next. unfold cs0_wr, cs0_wben, tag_val0, tag_idx0, tag_wdata0,
          cs0_idxsel, tag_tag0, cs0_tagsel, new_entry0, cs0_cmd, addr0, len0, cs0_admux, upd_way_mux0, cs0_tagsel, cs0, is_ctr_way0.
        rewrite TR, RM, wt_msr, FE. cbn [fst snd update_tag ct msr_of ms_amo_hit ms_repl mshr_req cq_addr].
        unfold sram_wr, tl_amo_tag, tset, upd, tl_way, tl_isamo, wben_all, ones_te. rewrite A, !wt_t, andb_true_r. fold c.
        destruct (tl_hit p c r || tl_inval p c r); cbn [andb]; auto.
        destruct (N.eqb_spec w (tl_hw p c r)); cbn [andb]; auto.
        destruct (N.eqb_spec k (a_idx p (cq_addr r))); auto. subst; auto.
      * intros k. rewrite dnext_nowr by (apply cs1_wr_false; rewrite T1'; auto).
        rewrite an_dram. rewrite DN, FE. auto.
      * intros k. rewrite quiet_rep by auto. rewrite FE. cbn [fst cr]. apply wt_r.
    + (* refill *)
      assert (RW : is_rw (cq_type r) = true) by (rewrite orb_false_r in wt_ty; auto).
      assert (RW' : (cq_type r =? T_WRITE) || (cq_type r =? T_READ) = true) by (rewrite orb_comm; auto).
      assert (TR : trans0 p s i = TR_REFILL).
      { unfold trans0, mshr_empty. rewrite wt_fsm, WH, MV, MT, wt_msn, RW'. auto. }
      assert (T1' : t1 (next p s i) = TR_REFILL) by (rewrite an_t1; auto).
      exists a. split.
      { eexists a, a, a.
        split. { unfold o_recv. rewrite NM. reflexivity. }
        split; [unfold o_send; rewrite O1, O2, M2, R2; reflexivity|].
        split; [right; auto|unfold o_acc; rewrite RE; auto]. }
      apply P_refill with r. constructor; auto.
      * rewrite an_fsm by auto. unfold fsm_next. rewrite wt_fsm, MV, MT, RW'. auto.
      * rewrite an_msn, AL, wt_msn by auto. unfold cs0_dealloc, cs0. rewrite TR. auto.
      * rewrite an_mrv; auto.
      * rewrite an_msr, AL by auto. auto.
      * rewrite an_ctr by auto. unfold ctr_en. rewrite wt_fsm, TR. auto.
      * rewrite an_t2; auto.
      * exists (mr_data (mrm s)). split; auto. intros k. fold c.
        unfold dnext, sram_wr, cs1_val, cs1_wr, cs1. rewrite T1'. cbn [andb fst snd].
        rewrite an_dram, an_q1 by auto. unfold tl_refill_dat, upd. rewrite !DN.
        assert (DR : drow1 p (next p s i) = tl_row p r (tl_way p c r)).
        { unfold drow1, addr1_2, cs1_evmux, cs1. rewrite T1'. cbn [snd fst]. unfold way_offset1. rewrite T1', an_wp1, wt_msr by auto.
          rewrite an_q1 by auto. unfold q0, addr0, cs0_admux, cs0. rewrite TR, RM. auto. }
        rewrite DR. destruct (k =? _); auto. f_equal.
        -- unfold q0, data0, cs0_wdmux, cs0. rewrite TR. auto.
        -- unfold dwben1, cs1_wben, cs1. rewrite T1', an_dm1, wt_msr by auto. auto.
      * intros w k. rewrite tram_next. unfold cs0_wr, cs0_wben, tag_val0, tag_idx0, tag_wdata0,
          cs0_idxsel, tag_tag0, cs0_tagsel, new_entry0, cs0_cmd, addr0, len0, cs0_admux, upd_way_mux0, cs0_tagsel, cs0, is_ctr_way0.
        rewrite TR, RM, wt_msr. cbn [fst snd update_tag ct msr_of ms_amo_hit ms_repl mshr_req cq_addr ms_dirty].
        unfold sram_wr, tl_refill_tag, ent_refill, tset, upd, wben_all, ones_te. rewrite !wt_t, andb_true_r. fold c.
        destruct (N.eqb_spec w (tl_way p c r)); cbn [andb]; auto.
        destruct (N.eqb_spec k (a_idx p (cq_addr r))); auto. subst; auto.
      * intros k. rewrite quiet_rep by auto. auto.
Qed.

Lemma adv_refill : forall s a i r, ph_refill p s a r -> legal p s (a_outst a) i -> ostall2 s i = false ->
  exists a', acyc p a i (output p s i) a' /\ phase p (next p s i) a'.
Proof.
  intros s a i r P L S. destruct P. destruct rf_cur as (l & CU & RD).
  set (c := a_c a) in *.
  assert (FI : fsm s <> F_INIT) by (rewrite rf_fsm; discriminate).
  assert (TI : t1 s <> TR_CACHE_INIT) by (rewrite rf_t1; discriminate).
  pose proof (noreq_msn _ _ _ L rf_msn) as RE.
  assert (Q : quiet_t (t1 s) = true) by (rewrite rf_t1; auto).
  pose proof (quiet_evict p s Q) as EV. pose proof (quiet_whc p s Q) as WH.
  assert (AL : cs1_alloc p s = false) by (apply quiet_alloc; rewrite ?rf_t1; auto; discriminate).
  assert (MT : mshr_type s = cq_type r) by (unfold mshr_type; rewrite rf_msr; auto).
  destruct (out_nostall p s i S) as [O1 O2].
  destruct (m2_inactive s) as [R2 M2]; [rewrite rf_t2; auto|].
  erewrite outst_cur in L by eauto. pose proof (noresp p s i L) as NM.
  assert (MX : mux_sel0 s = true) by (unfold mux_sel0; rewrite rf_fsm; auto).
  assert (RM : req_mux0 s i = mshr_req p r) by (unfold req_mux0; rewrite MX, rf_msr; auto).
  assert (KD : is_rw (cq_type r) || is_amo (cq_type r) = true) by (rewrite rf_ty; auto).
  assert (A : is_amo (cq_type r) = false).
  { rewrite (amo_rw _ KD) in rf_ty. destruct (is_amo (cq_type r)); auto; discriminate. }
  destruct (ty_not_flush _ KD) as [NF NI].
  set (f := tl_fin p c r l).
  set (D1 := tl_refill_dat p c r (cd c) l).
  assert (FE : f = (mkC (tl_replay_tag p c r (tl_refill_tag p c r (ct c)))
         (tl_wdat p r D1 (tl_way p c r) (tl_data_replay p r)) (tl_crep p c r),
     tl_resp r 0 (tl_read p r (D1 (tl_row p r (tl_way p c r)))))).
  { unfold f, tl_fin, tl_isamo. rewrite A, rf_miss.
    destruct (N.eqb_spec (cq_type r) T_INV) as [E|E]; [congruence|].
    destruct (N.eqb_spec (cq_type r) T_FLUSH) as [E'|E']; [congruence|]. auto. }
  assert (TR : (cq_type r = T_WRITE /\ trans0 p s i = TR_REPLAY_WRITE) \/ (cq_type r = T_READ /\ trans0 p s i = TR_REPLAY_READ)).
  { unfold trans0, mshr_empty. rewrite rf_fsm, WH, MT, rf_msn. cbn [andb negb N.eqb].
    unfold is_rw in rf_ty. apply orb_prop in rf_ty.
    destruct rf_ty as [E|E]; apply N.eqb_eq in E; rewrite E; auto. }
  assert (T1' : t1 (next p s i) = trans0 p s i) by (rewrite an_t1; auto).
  assert (Q' : quiet_t (t1 (next p s i)) = true) by (rewrite T1'; destruct TR as [(_ & ->) | (_ & ->)]; auto).
  assert (Q1 : q1 (next p s i) = mkCReq (cq_type r) (cq_opq r) (cq_addr r) (cq_len r) (tl_data_replay p r)).
  { rewrite an_q1 by auto. unfold q0, addr0, len0, data0, cs0_admux, cs0_wdmux, is_amo0, cs0.
    destruct TR as [(_ & ->) | (_ & ->)]; cbn [fst snd trans_eqb orb]; rewrite RM; auto. }
  assert (DR : drow1 p (next p s i) = tl_row p r (tl_way p c r)).
  { unfold drow1, addr1_2, cs1_evmux, cs1, way_offset1. rewrite T1', Q1, an_wp1, rf_msr by auto.
    destruct TR as [(_ & ->) | (_ & ->)]; auto. }
  exists (mkA (fst f) None [snd f]). split.
  { eexists a, a, (mkA (fst f) None [snd f]).
    split. { unfold o_recv. rewrite NM. reflexivity. }
    split; [unfold o_send; rewrite O1, O2, M2, R2; reflexivity|].
    split; [|unfold o_acc; rewrite RE; auto]. left.
    destruct a as [c0 u pd]. cbn in c, CU, rf_pend. subst u pd. apply A_done. }
  apply P_idle. constructor; cbn [a_c a_cur a_pend]; auto.
  - rewrite an_fsm by auto. unfold fsm_next. rewrite rf_fsm, MT.
    destruct (N.eqb_spec (cq_type r) T_FLUSH) as [E'|E']; [congruence|]. rewrite andb_false_r. auto.
  - rewrite an_msn, AL, rf_msn by auto. unfold cs0_dealloc, cs0. destruct TR as [(_ & ->) | (_ & ->)]; auto.
  - rewrite an_mrv; auto.
  - rewrite an_ctr by auto. unfold ctr_en. rewrite rf_fsm. destruct TR as [(_ & ->) | (_ & ->)]; auto.
  - rewrite T1'. destruct TR as [(_ & ->) | (_ & ->)]; auto.
  - rewrite T1'. destruct TR as [(_ & ->) | (_ & ->)]; discriminate.
  - rewrite an_mem2 by auto. rewrite rf_t1, EV. auto.
  - rewrite an_resp2, rf_t1, EV by auto. cbn [m2_active m2_resp ol app]. unfold resp1.
    rewrite (quiet_evict p _ Q'), (quiet_hit p _ Q'), T1', FE.
    rewrite q1_2_eq by (unfold cs1_evmux, cs1; rewrite T1'; destruct TR as [(_ & ->) | (_ & ->)]; auto).
    rewrite Q1. unfold tl_resp, tl_read.
    destruct TR as [(E & TR) | (E & TR)]; rewrite TR; cbn [m2_active m2_resp ol cq_type cq_opq cq_addr cq_len cq_data snd b2n].
    + rewrite E. change (T_WRITE =? T_READ) with false. rewrite !fast_select_off. auto.
    + rewrite E. change (T_READ =? T_READ) with true.
      rewrite ddnext_rd by (unfold cs1_val, cs1_wr, cs1; rewrite T1', TR; auto).
      rewrite DR, an_dram, RD. auto.
  - intros w k. rewrite tram_next. unfold cs0_wr, cs0_wben, tag_val0, tag_idx0, tag_wdata0,
          cs0_idxsel, tag_tag0, cs0_tagsel, new_entry0, cs0_cmd, addr0, len0, cs0_admux, upd_way_mux0, cs0_tagsel, cs0, is_ctr_way0.
    rewrite RM, rf_msr, FE. unfold tl_replay_tag, sram_wr.
    destruct TR as [(E & ->) | (E & ->)]; rewrite E; cbn [fst snd update_tag ct msr_of ms_amo_hit ms_repl mshr_req cq_addr ms_dirty cq_len andb].
    + change (T_WRITE =? T_WRITE) with true. unfold tset, upd, wben_all, ones_te. rewrite !rf_t, andb_true_r. fold c.
      destruct (N.eqb_spec w (tl_way p c r)); cbn [andb]; auto.
      destruct (N.eqb_spec k (a_idx p (cq_addr r))); auto. subst; auto.
    + change (T_READ =? T_WRITE) with false. rewrite rf_t. auto.
  - intros k. rewrite FE. cbn [fst cd]. unfold dnext, sram_wr, tl_wdat, cs1_val, cs1_wr, dwben1, cs1_wben, cs1, off1.
    rewrite T1', an_dram, DR, Q1. fold D1.
    destruct TR as [(E & ->) | (E & ->)]; rewrite E; cbn [fst snd andb wben cq_data cq_len cq_addr].
    + change (T_WRITE =? T_WRITE) with true. unfold upd. rewrite !RD. auto.
    + change (T_READ =? T_WRITE) with false. apply RD.
  - intros k. rewrite quiet_rep by auto. rewrite FE. cbn [fst cr]. apply rf_r.
Qed.
End A.
