(** Advancing cycles: idle, look-up, eviction. *)
From Coq Require Import NArith List Bool Lia.
From Verif Require Import Bits Params Msg Units Rtl Tl ParamsProofs RtlLemmas RefineInv RefineStall RefineReq.
Import ListNotations.
Open Scope N_scope.

Section A.
Variable p : params.
Hypothesis W : wf_params p.

Lemma send_resp : forall s a i rest, ostall2 s i = false -> mem2 p s = None ->
  a_pend a = ol (resp2 p s) ++ rest ->
  o_send p a (output p s i) (mkA (a_c a) (a_cur a) rest).
Proof.
  intros s a i rest S M P. destruct (out_nostall p s i S) as [E1 E2].
  unfold o_send. rewrite E1, E2, M. destruct a as [c u pd]. cbn [a_pend a_c a_cur] in *. subst pd.
  destruct (resp2 p s); [apply A_emit | reflexivity].
Qed.

Lemma no_recv : forall s a i, legal p s (a_outst a) i -> a_outst a = [] -> o_recv a i a.
Proof.
  intros s a i L E. rewrite E in L. unfold o_recv. rewrite (noresp p s i L). auto.
Qed.

(** transactions that never evict, allocate or touch the replacement bits *)
Definition quiet_t (t : trans) : bool :=
  match t with
  | TR_READ_REQ | TR_WRITE_REQ | TR_AMO_REQ | TR_INIT_REQ => false
  | _ => true
  end.
Lemma quiet_evict : forall s, quiet_t (t1 s) = true -> is_evict1 p s = false.
Proof. intros s. unfold is_evict1, is_rwi1, is_amo1. destruct (t1 s); cbn; auto; discriminate. Qed.
Lemma quiet_hit : forall s, quiet_t (t1 s) = true -> hit1 p s = false.
Proof. intros s. unfold hit1, is_rwi1, is_amo1. destruct (t1 s); cbn; auto; discriminate. Qed.
Lemma quiet_whc : forall s, quiet_t (t1 s) = true -> write_hit_clean p s = false.
Proof. intros s H. apply whc_t. intro Q. rewrite Q in H. discriminate. Qed.
Lemma quiet_rep : forall s i, ostall2 s i = false -> quiet_t (t1 s) = true -> rep (next p s i) = rep s.
Proof.
  intros s i S H. rewrite an_rep by auto. replace (repreq_en1 p s) with false; auto.
  unfold repreq_en1, is_rwi1, is_amo1. destruct (t1 s); cbn in *; auto; discriminate.
Qed.
Lemma quiet_alloc : forall s, quiet_t (t1 s) = true -> t1 s <> TR_INV_START -> t1 s <> TR_FLUSH_START ->
  cs1_alloc p s = false.
Proof.
  intros s H. unfold cs1_alloc, cs1. rewrite (quiet_evict s H).
  destruct (t1 s); cbn in *; auto; try discriminate; congruence.
Qed.
Lemma idle_quiet : forall t, idle_t t = true -> quiet_t t = true /\ t <> TR_INV_START /\ t <> TR_FLUSH_START.
Proof. intros t; destruct t; cbn; try discriminate; repeat split; auto; discriminate. Qed.

Lemma adv_idle : forall s a i, ph_idle p s a -> legal p s (a_outst a) i -> ostall2 s i = false ->
  exists a', acyc p a i (output p s i) a' /\ phase p (next p s i) a'.
Proof.
  intros s a i P L S. destruct P.
  destruct (idle_quiet _ id_t1) as (Q & Q1 & Q2).
  assert (O : a_outst a = []) by (unfold a_outst; rewrite id_cur; auto).
  assert (R2 : resp2 p (next p s i) = resp1 p s) by (rewrite an_resp2 by auto; reflexivity).
  destruct (accept p W s i (a_c a)) as (a' & AC & PH); auto.
  - apply quiet_evict; auto.
  - apply quiet_whc; auto.
  - apply quiet_alloc; auto.
  - rewrite <- O; auto.
  - intros. rewrite quiet_rep by auto. auto.
  - rewrite an_mem2, (quiet_evict s Q) by auto. destruct (t1 s); cbn in id_t1 |- *; auto; discriminate.
  - exists a'. split; auto. rewrite R2 in AC.
    exists a, (mkA (a_c a) (a_cur a) (ol (resp1 p s))), (mkA (a_c a) None (ol (resp1 p s))).
    split; [eapply no_recv; eauto|]. split; [apply send_resp; auto|].
    split; [right; rewrite id_cur; auto | auto].
Qed.

Lemma off_in_line : forall w idx, indexer p idx w = indexer p idx w. Proof. auto. Qed.

(** the data read for a READ hit *)
Lemma ddnext_rd : forall s, cs1_val p s = true -> cs1_wr p s = false -> ddnext p s = dram s (drow1 p s).
Proof. intros s H1 H2. unfold ddnext, sram_rd. rewrite H1, H2. auto. Qed.

Lemma fast_select_off : forall len off x, fast_select p false false len off x = 0.
Proof. intros. unfold fast_select, dsel_sel. auto. Qed.

Lemma q1_2_eq : forall s, cs1_evmux p s = false -> q1_2 p s = q1 s.
Proof. intros s H. unfold q1_2, addr1_2. rewrite H. destruct (q1 s); auto. Qed.

Lemma rep_after : forall s i c r, looking p s c r -> ostall2 s i = false ->
  forall k, rep (next p s i) k =
   (if is_rw (cq_type r) && tl_evict p c r then cr c else tl_crep p c r) k.
Proof.
  intros s i c r LK S k. rewrite an_rep by auto.
  destruct (repreq_en1 p s) eqn:E.
  - pose proof E as E'. rewrite (lw_repen p s c r LK) in E'. apply andb_prop in E'. destruct E' as [E1 E2].
    apply negb_true_iff in E2. rewrite E2. unfold tl_crep. rewrite E1.
    rewrite (lw_repwr p s c r LK E), (lw_idx p s c r LK). unfold upd.
    destruct (k =? _); auto. apply (lk_r _ _ _ _ LK).
  - rewrite (lw_repen p s c r LK) in E. apply andb_false_iff in E. rewrite (lk_r _ _ _ _ LK).
    destruct E as [E | E].
    + unfold tl_crep. rewrite E. destruct (_ && _); auto.
    + apply negb_false_iff in E. rewrite E. auto.
Qed.

(** The memory request a miss leaves in M2 *)
Lemma line_addr_idem : forall t i, t < 2 ^ tagw p -> i < 2 ^ idxw p ->
  line_addr p (mk_addr p t i 0) = mk_addr p t i 0.
Proof. intros. unfold line_addr. rewrite a_tag_mk, a_idx_mk by auto. auto. Qed.

Lemma adv_req : forall s a i r, ph_req p s a r -> legal p s (a_outst a) i -> ostall2 s i = false ->
  exists a', acyc p a i (output p s i) a' /\ phase p (next p s i) a'.
Proof.
  intros s a i r P L S. destruct P.
  assert (O : a_outst a = []) by (eapply outst_cur; eauto).
  pose proof (no_recv s a i L O) as NRv. rewrite O in L.
  assert (FI : fsm s <> F_INIT) by (rewrite rq_fsm; discriminate).
  assert (TI : t1 s <> TR_CACHE_INIT) by (rewrite rq_t1; apply st_notinit; auto).
  assert (MVf : mr_val s = false) by (apply mr_val_mrv; auto).
  set (c := a_c a) in *.
  assert (LK : looking p s c r) by (constructor; auto).
  assert (SND : o_send p a (output p s i) (mkA c (a_cur a) [])).
  { apply send_resp; auto. rewrite app_nil_r; auto. }
  rewrite rq_cur in SND.
  destruct (is_rw (cq_type r) && tl_hit p c r) eqn:HIT.
  - (* hit *)
    apply andb_prop in HIT. destruct HIT as [RW HT].
    assert (NA : is_amo (cq_type r) = false).
    { rewrite (rw_not_amo p s c r LK) in RW. destruct (is_amo (cq_type r)); auto; discriminate. }
    pose proof (hit_noevict p s c r LK RW HT) as NE.
    assert (EV : is_evict1 p s = false) by (rewrite (lw_evict p s c r LK); auto).
    assert (QQ : tl_reqs p c r = []).
    { unfold tl_reqs, tl_isamo. rewrite NA, HT.
      unfold is_rw in RW. apply orb_prop in RW. destruct RW as [RW|RW]; apply N.eqb_eq in RW; rewrite RW; auto. }
    rewrite QQ in *.
    set (f := tl_fin p c r 0).
    assert (FE : f = (mkC (tl_wtag p c r (ct c)) (tl_wdat p r (cd c) (tl_hw p c r) (tl_data p r)) (tl_crep p c r),
       tl_resp r 1 (tl_read p r (cd c (tl_row p r (tl_hw p c r)))))).
    { unfold f, tl_fin, tl_isamo. rewrite NA, HT.
      unfold is_rw in RW. apply orb_prop in RW. destruct RW as [RW|RW]; apply N.eqb_eq in RW; rewrite RW; auto. }
    assert (DN : o_done p (mkA c (Some (mkCur r [] [] 0)) []) (mkA (fst f) None [snd f])).
    { left. apply A_done. }
    assert (AL : cs1_alloc p s = false).
    { rewrite (lw_alloc p s c r LK), NE, NA, HT. auto. }
    assert (Q12 : q1_2 p s = pipe_req p r).
    { rewrite q1_2_eq; auto. rewrite (lw_evmux p s c r LK). auto. }
    assert (R2 : resp2 p (next p s i) = Some (snd f)).
    { rewrite an_resp2, EV, (lw_hit1 p s c r LK), HT, Q12, FE by auto. cbn [snd].
      destruct (req_trans_cases _ rq_ty) as [(E & T & _) | [(E & T & _) | (E & T & _)]]; [| |congruence];
        rewrite rq_t1, T; unfold m2_resp, tl_resp, tl_read; rewrite E; cbn [m2_active cq_type cq_opq cq_len cq_addr pipe_req b2n].
      - change (T_READ =? T_READ) with true. rewrite E. repeat f_equal.
        rewrite ddnext_rd, (lw_drow p s c r LK) by
          (auto; unfold cs1_val, cs1_wr, cs1; rewrite rq_t1, T, EV, (lw_hit1 p s c r LK), HT; auto).
        rewrite <- (lw_drow p s c r LK) by auto.
        specialize (rq_d (drow1 p s)). unfold tl_wdat in rq_d. rewrite E in rq_d.
        change (T_READ =? T_WRITE) with false in rq_d. cbn iota in rq_d. rewrite <- rq_d.
        rewrite dnext_nowr; auto.
        unfold cs1_wr, cs1. rewrite rq_t1, T, EV, (lw_hit1 p s c r LK), HT; auto.
      - change (T_WRITE =? T_READ) with false. rewrite !fast_select_off. rewrite E. auto. }
    assert (M2 : mem2 p (next p s i) = None).
    { rewrite an_mem2, EV, (lw_hit1 p s c r LK), HT by auto.
      destruct (req_trans_cases _ rq_ty) as [(E & T & _) | [(E & T & _) | (E & T & _)]]; [| |congruence];
        rewrite rq_t1, T; auto. }
    assert (RP : forall k, rep (next p s i) k = cr (fst f) k).
    { intro k. rewrite (rep_after s i c r LK S), NE, andb_false_r, FE. auto. }
    assert (Df : forall k, dnext p s k = cd (fst f) k) by (intro; rewrite rq_d, FE; auto).
    assert (Tf : forall w k, tnext p s w k = ct (fst f) w k) by (intros; rewrite rq_t, FE; auto).
    destruct (write_hit_clean p s) eqn:WH.
    + (* clean hit: one bubble *)
      assert (RE : i_req_en i = false).
      { destruct (i_req_en i) eqn:E; auto. destruct (lg_req _ _ _ _ L E) as [R _].
        apply req_rdy_inv in R. destruct R as (R & _). congruence. }
      assert (TR : trans0 p s i = TR_CLEAN_HIT) by (unfold trans0; rewrite rq_fsm, WH; auto).
      exists (mkA (fst f) None [snd f]). split.
      { exists a, (mkA c (Some (mkCur r [] [] 0)) []), (mkA (fst f) None [snd f]).
        split; auto. split; auto. split; auto. unfold o_acc. rewrite RE. auto. }
      apply P_idle. constructor; cbn [a_c a_cur a_pend]; auto.
      * rewrite an_fsm by auto. unfold fsm_next. rewrite rq_fsm, MVf, RE, andb_false_r. auto.
      * rewrite an_msn, AL by auto. unfold cs0_dealloc, cs0. rewrite TR. auto.
      * rewrite an_mrv by auto. eapply noresp; eauto.
      * rewrite an_ctr by auto. unfold ctr_en. rewrite rq_fsm, TR. auto.
      * rewrite an_t1, TR by auto. auto.
      * rewrite an_t1, TR by auto. discriminate.
      * rewrite R2. unfold resp1. rewrite an_t1, TR by auto. auto.
      * intros. rewrite tram_indep by auto. auto.
      * intros. rewrite dnext_nowr, an_dram; auto. apply cs1_wr_false. rewrite an_t1, TR by auto. auto.
    + destruct (accept p W s i (fst f)) as (a' & AC & PH); auto.
      * intros. rewrite <- Tf. rewrite tnext_invalid; auto. apply trans0_ready_idle; auto.
      * exists a'. split; auto. rewrite R2 in AC.
        eexists _, _, _. split; eauto.
  - (* miss or AMO *)
    assert (NT : forall w k, tnext p s w k = ct c w k) by auto.
    assert (ND : forall k, dnext p s k = cd c k) by auto.
    assert (WHf : write_hit_clean p s = false) by (rewrite (lw_whc p s c r LK), HIT; auto).
    assert (ALt : cs1_alloc p s = true).
    { rewrite (lw_alloc p s c r LK). rewrite (rw_not_amo p s c r LK) in HIT.
      destruct (is_amo (cq_type r)); cbn in HIT; [rewrite orb_true_r; auto|].
      rewrite HIT. rewrite orb_true_r; auto. }
    assert (RE : i_req_en i = false).
    { destruct (i_req_en i) eqn:E; auto. destruct (lg_req _ _ _ _ L E) as [R _].
      apply req_rdy_inv in R. destruct R as (_ & _ & _ & R). congruence. }
    assert (TR : trans0 p s i = TR_INVALID) by (apply trans0_ready_idle; auto).
    assert (Htr : forall w k, tram (next p s i) w k = ct c w k).
    { intros. rewrite tram_indep; auto. }
    assert (WAY : way_offset1 p s = tl_way p c r) by (apply (lw_way p s c r LK); auto).
    assert (HQ : hitq p s = (tl_hit p c r || tl_inval p c r, tl_hw p c r)).
    { rewrite rq_hitq. unfold hsr_in.
      rewrite (lw_hit p s c r LK), (lw_inval p s c r LK), (lw_hw p s c r LK). auto. }
    assert (WM : write_mask1 p s = te_dty p (tl_ent p c r (tl_way p c r))).
    { unfold write_mask1. rewrite WAY, (lw_ent p s c r LK). auto. }
    assert (QQ : tl_reqs p c r =
       (if tl_evict p c r then [evict_req p c r (tl_way p c r)] else []) ++ [main_req p c r]).
    { unfold tl_reqs, main_req, tl_isamo.
      destruct (req_trans_cases _ rq_ty) as [(E & _ & H & A) | [(E & _ & H & A) | (A & _)]].
      - rewrite H in HIT. cbn in HIT. rewrite A, HIT, E. auto.
      - rewrite H in HIT. cbn in HIT. rewrite A, HIT, E. auto.
      - rewrite A. destruct (N.eqb_spec (cq_type r) T_INV) as [E|E]; [rewrite E in A; discriminate|].
        destruct (N.eqb_spec (cq_type r) T_FLUSH) as [E'|E']; [rewrite E' in A; discriminate|]. auto. }
    rewrite QQ in *.
    destruct (tl_evict p c r) eqn:TE.
    + (* eviction first *)
      assert (EV : is_evict1 p s = true) by (rewrite (lw_evict p s c r LK); auto).
      destruct (ae_regs p s i EV FI) as (E1 & E2 & E3 & E4 & E5 & E6 & E7 & E8).
      eexists. split.
      { eexists _, _, _. split; eauto. split; eauto. split; [right; reflexivity|].
        unfold o_acc. rewrite RE. reflexivity. }
      assert (CSW : cs1_val p s = true /\ cs1_wr p s = false).
      { unfold cs1_val, cs1_wr, cs1. rewrite EV, rq_t1.
        destruct (req_trans_cases _ rq_ty) as [(_ & -> & _) | [(_ & -> & _) | (_ & -> & _)]]; auto. }
      assert (EVM : cs1_evmux p s = true) by (rewrite (lw_evmux p s c r LK); auto).
      assert (DR : forall k, dram s k = cd c k).
      { intros k. rewrite <- ND, dnext_nowr; [auto | apply CSW]. }
      apply P_evict with r. constructor; cbn [a_c a_cur a_pend]; try congruence; auto.
      * rewrite an_t2 by auto. congruence.
      * rewrite an_ev2 by auto. auto.
      * rewrite an_mem2 by auto. rewrite EV.
        assert (ME : m2_mem p (t1 s) true (hit1 p s) (has_flush_sent1 p s) (q1_2 p s) (write_mask1 p s) (ddnext p s)
          = Some (mkMReq T_WRITE (cq_opq (q1_2 p s))
              (mk_addr p (a_tag p (cq_addr (q1_2 p s))) (a_idx p (cq_addr (q1_2 p s))) 0) 0 (write_mask1 p s) (ddnext p s))).
        { rewrite rq_t1. destruct (req_trans_cases _ rq_ty) as [(_ & -> & _) | [(_ & -> & _) | (_ & -> & _)]]; auto. }
        rewrite ME. unfold evict_req, line_addr. 
        assert (AD : cq_addr (q1_2 p s) = mk_addr p (te_tag p (tl_ent p c r (tl_way p c r))) (a_idx p (cq_addr r)) 0).
        { unfold q1_2, addr1_2. rewrite EVM. cbn [cq_addr]. unfold evict_addr1, ev_idx1.
          replace (flush_idx_sel1 s) with false.
          - rewrite WAY, rq_tagq, (lw_idx p s c r LK). auto.
          - unfold flush_idx_sel1. rewrite rq_t1.
            destruct (req_trans_cases _ rq_ty) as [(_ & -> & _) | [(_ & -> & _) | (_ & -> & _)]]; auto. }
        assert (OQ : cq_opq (q1_2 p s) = cq_opq r) by (unfold q1_2; rewrite rq_q1; auto).
        assert (DD : ddnext p s = cd c (tl_row p r (tl_way p c r))).
        {  destruct CSW. rewrite ddnext_rd by auto. rewrite DR. f_equal.
           unfold drow1, tl_row. rewrite WAY. change (addr1_2 p s) with (cq_addr (q1_2 p s)). rewrite AD.
           rewrite a_idx_mk; auto. rewrite <- (nblocks_pow p W). apply a_idx_lt; auto. }
        rewrite AD, WM, OQ, DD. reflexivity.
      * unfold hitq, hsr_en. rewrite an_ev2, EV by auto. rewrite andb_false_r. exact HQ.
      * intros. rewrite (rep_after s i c r LK S), TE, andb_true_r. unfold tl_isamo.
        rewrite (rw_not_amo p s c r LK). destruct (is_amo (cq_type r)); auto.
    + (* straight miss *)
      assert (EV : is_evict1 p s = false) by (rewrite (lw_evict p s c r LK); auto).
      eexists. split.
      { eexists _, _, _. split; eauto. split; eauto. split; [right; reflexivity|].
        unfold o_acc. rewrite RE. reflexivity. }
      assert (Q12 : q1_2 p s = pipe_req p r).
      { rewrite q1_2_eq; auto. rewrite (lw_evmux p s c r LK). auto. }
      assert (TD : write_mask1 p s = tl_dirty p c r) by (unfold tl_dirty; rewrite TE; auto).
      assert (NM : i_mresp_en i = false) by (eapply noresp; eauto).
      apply P_wait with r. constructor; cbn [a_c a_cur a_pend]; auto.
      * rewrite an_fsm by auto. unfold fsm_next. rewrite rq_fsm, MVf, RE, andb_false_r. auto.
      * rewrite an_msn, ALt, rq_msn by auto. auto.
      * rewrite an_msr, ALt by auto. unfold mshr_alloc_in, msr_of.
        rewrite EV, WAY, HQ, TD, rq_q1. auto.
      * rewrite an_ctr by auto. unfold ctr_en. rewrite rq_fsm, TR. auto.
      * intros RW. rewrite RW in HIT. auto.
      * rewrite an_t1; auto.
      * intros. rewrite (rep_after s i c r LK S), TE, andb_false_r. auto.
      * left. split; [|split; [|split]].
        -- rewrite an_mem2, EV, Q12, TD, (lw_hit1 p s c r LK) by auto.
           destruct (req_trans_cases _ rq_ty) as [(E & T & H & A) | [(E & T & H & A) | (A & T & H)]];
             rewrite rq_t1, T; unfold m2_mem, main_req, tl_isamo; rewrite A; auto.
           ++ rewrite H in HIT. cbn in HIT. rewrite HIT. auto.
           ++ rewrite H in HIT. cbn in HIT. rewrite HIT. auto.
        -- rewrite an_resp2, EV, (lw_hit1 p s c r LK) by auto.
           destruct (req_trans_cases _ rq_ty) as [(E & T & H & A) | [(E & T & H & A) | (A & T & H)]];
             rewrite rq_t1, T; cbn; auto; rewrite H in HIT; cbn in HIT; rewrite HIT; auto.
        -- apply mr_val_mrv. rewrite an_mrv by auto. auto.
        -- exists [], 0. split; [constructor | auto].
Qed.

(** second pass of an evicting request *)
Lemma adv_evict : forall s a i r, ph_evict p s a r -> legal p s (a_outst a) i -> ostall2 s i = false ->
  exists a', acyc p a i (output p s i) a' /\ phase p (next p s i) a'.
Proof.
  intros s a i r P L S. destruct P.
  assert (O : a_outst a = []) by (eapply outst_cur; eauto).
  pose proof (no_recv s a i L O) as NRv. rewrite O in L.
  set (c := a_c a) in *.
  assert (FI : fsm s <> F_INIT) by (rewrite ev_fsm; discriminate).
  assert (TI : t1 s <> TR_CACHE_INIT) by (rewrite ev_t1; apply st_notinit; auto).
  assert (MVf : mr_val s = false) by (apply mr_val_mrv; auto).
  assert (PE : tag_proc_en s = false) by (unfold tag_proc_en; rewrite ev_ev2; auto).
  assert (PU : pu p s = (false, false, 0)).
  { unfold pu, pu_compare. rewrite PE, andb_false_r. auto. }
  assert (HT : hit1 p s = false).
  { unfold hit1, pu_hit. rewrite PU. cbn. destruct (is_rwi1 s || is_amo1 s); auto. }
  assert (LD : forall w, pu_ld p s w = false) by (intro; unfold pu_ld, line_dirty; rewrite PE; auto).
  assert (EV : is_evict1 p s = false).
  { unfold is_evict1, is_dty1. rewrite HT, !LD. destruct (is_rwi1 s), (is_amo1 s); cbn; auto; now rewrite andb_false_r. }
  assert (WHf : write_hit_clean p s = false).
  { unfold write_hit_clean. rewrite HT. cbn. now rewrite !andb_false_r. }
  assert (ALt : cs1_alloc p s = true).
  { unfold cs1_alloc, cs1. rewrite EV, HT, ev_t1.
    destruct (req_trans_cases _ ev_ty) as [(_ & -> & _) | [(_ & -> & _) | (_ & -> & _)]]; auto. }
  assert (CW : cs1_wr p s = false /\ cs1_evmux p s = false).
  { unfold cs1_wr, cs1_evmux, cs1. rewrite EV, HT, ev_t1.
    destruct (req_trans_cases _ ev_ty) as [(_ & -> & _) | [(_ & -> & _) | (_ & -> & _)]]; auto. }
  destruct CW as [CW EVM].
  assert (RE : i_req_en i = false).
  { destruct (i_req_en i) eqn:E; auto. destruct (lg_req _ _ _ _ L E) as [R _].
    apply req_rdy_inv in R. destruct R as (_ & _ & _ & R). congruence. }
  assert (TR : trans0 p s i = TR_INVALID) by (apply trans0_ready_idle; auto).
  assert (Q12 : q1_2 p s = pipe_req p r) by (rewrite q1_2_eq; auto).
  assert (WM : write_mask1 p s = 0).
  { unfold write_mask1, pu_ent, pu_entry. rewrite PE. apply te_dty_0. }
  assert (NH : is_rw (cq_type r) = true -> tl_hit p c r = false /\ tl_way p c r = tl_rep p c r).
  { intros RW. revert ev_evict. unfold tl_evict, tl_way, tl_isamo.
    destruct (req_trans_cases _ ev_ty) as [(_ & _ & _ & ->) | [(_ & _ & _ & ->) | (_ & _ & H)]]; [| |congruence];
    destruct (tl_inval p c r); try discriminate; destruct (tl_hit p c r); try discriminate; auto. }
  assert (IDX : idx1 p s = a_idx p (cq_addr r)) by (unfold idx1; rewrite ev_q1; auto).
  assert (WAY : way_offset1 p s = tl_way p c r).
  { unfold way_offset1. rewrite ev_t1, HT. unfold pu_inval. rewrite PU. cbn [fst snd negb].
    destruct (req_trans_cases _ ev_ty) as [(_ & T & RW & A) | [(_ & T & RW & A) | (A & T & RW)]]; rewrite T.
    - destruct (NH RW) as [_ ->]. unfold rep_rd. rewrite ev_r. unfold tl_isamo. rewrite A, IDX. auto.
    - destruct (NH RW) as [_ ->]. unfold rep_rd. rewrite ev_r. unfold tl_isamo. rewrite A, IDX. auto.
    - rewrite ev_hitq. unfold tl_way, tl_isamo. rewrite A. auto. }
  assert (TD : 0 = tl_dirty p c r) by (unfold tl_dirty; rewrite ev_evict; auto).
  destruct (out_nostall p s i S) as [O1 O2].
  eexists. split.
  { eexists _, (mkA c (Some (mkCur r [main_req p c r] [evict_req p c r (tl_way p c r)] 0)) []), _.
    split; eauto. split; [|split; [right; reflexivity|unfold o_acc; rewrite RE; reflexivity]].
    unfold o_send. rewrite O1, O2, ev_mem2. rewrite resp2_eq, ev_t2, ev_ev2.
    replace (if m2_active (t1 s) then m2_resp p (t1 s) true (hit2 s) (q2 s) (dataq s) else None) with (@None cresp)
      by (unfold m2_resp; destruct (m2_active (t1 s)); auto).
    destruct a as [c0 u pd]. cbn in c, ev_cur, ev_pend. subst u pd.
    apply (A_send c r _ (evict_req p c r (tl_way p c r)) [main_req p c r] [] 0 []); auto.
    unfold mreq_match. repeat split; auto. }
  assert (NM : i_mresp_en i = false) by (eapply noresp; eauto).
  apply P_wait with r. constructor; cbn [a_c a_cur a_pend]; auto.
  - rewrite an_fsm by auto. unfold fsm_next. rewrite ev_fsm, MVf, RE, andb_false_r. auto.
  - rewrite an_msn, ALt, ev_msn by auto. auto.
  - rewrite an_msr, ALt by auto. unfold mshr_alloc_in, msr_of.
    rewrite EV, WAY, ev_hitq, WM, ev_q1, <- TD. auto.
  - rewrite an_ctr by auto. unfold ctr_en. rewrite ev_fsm, TR. auto.
  - intros RW. apply NH; auto.
  - rewrite an_t1; auto.
  - intros. rewrite tram_indep by auto. rewrite tnext_invalid; auto. apply trans0_ready_idle; auto.
  - intros. rewrite an_dram. rewrite dnext_nowr; auto.
  - intros k. rewrite an_rep by auto. unfold tl_crep, tl_rep_en, rep_wr, tl_rep' in *. unfold tl_isamo in *.
    assert (RC : (is_amo (cq_type r) = true /\ t1 s = TR_AMO_REQ) \/
       (is_amo (cq_type r) = false /\ is_rw (cq_type r) = true /\ (t1 s = TR_READ_REQ \/ t1 s = TR_WRITE_REQ))).
    { rewrite ev_t1. destruct (req_trans_cases _ ev_ty) as [(_ & -> & -> & ->) | [(_ & -> & -> & ->) | (-> & -> & ->)]]; auto. }
    destruct RC as [(A & T) | (A & RW & T)]; rewrite A in *.
    + replace (repreq_en1 p s) with false; auto.
      unfold repreq_en1, is_rwi1, is_amo1, pu_inval. rewrite PU, HT, T. auto.
    + unfold repreq_en1, repreq_is_hit1, repreq_hit_ptr1, is_rwi1, is_amo1, is_init1, pu_inval.
      rewrite PU, HT, EV. cbn [negb fst snd orb].
      assert (IV : tl_inval p c r = false).
      { revert ev_evict. unfold tl_evict, tl_isamo. rewrite A. destruct (tl_inval p c r); auto. }
      destruct (NH RW) as [NH1 _]. rewrite NH1, IV.
      unfold upd. rewrite IDX. destruct T as [-> | ->]; cbn [trans_eqb orb];
      (destruct (k =? _); [|auto]); unfold rep_rd; rewrite ev_r, IDX; auto.
  - left. split; [|split; [|split]].
    + rewrite an_mem2, EV, Q12, WM, HT by auto.
      destruct (req_trans_cases _ ev_ty) as [(E & T & H & A) | [(E & T & H & A) | (A & T & H)]];
        rewrite ev_t1, T; unfold m2_mem, main_req, tl_isamo; rewrite A; unfold refill_req, amo_req;
        rewrite <- TD; auto.
    + rewrite an_resp2, EV, HT by auto.
      destruct (req_trans_cases _ ev_ty) as [(E & T & H & A) | [(E & T & H & A) | (A & T & H)]];
        rewrite ev_t1, T; auto.
    + apply mr_val_mrv. rewrite an_mrv by auto. auto.
    + exists [evict_req p c r (tl_way p c r)], 0. split; auto. repeat constructor.
Qed.

End A.
