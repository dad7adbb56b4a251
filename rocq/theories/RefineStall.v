(** Stalled cycles preserve the simulation relation. *)
From Coq Require Import NArith List Bool Lia.
From Verif Require Import Bits Params Msg Units Rtl Tl ParamsProofs RtlLemmas RefineInv.
Import ListNotations.
Open Scope N_scope.

Section S.
Variable p : params.

Lemma req_rdy_stall : forall s i, stall01 p s i = true -> req_rdy p s i = false.
Proof.
  intros. unfold req_rdy. rewrite H.
  destruct (fsm_eqb (fsm s) F_INIT), (write_hit_clean p s); auto.
Qed.

Lemma noreq_stall : forall s out i, legal p s out i -> stall01 p s i = true -> i_req_en i = false.
Proof.
  intros s out i L S. destruct (i_req_en i) eqn:E; auto.
  destruct (lg_req _ _ _ _ L E) as [R _]. rewrite req_rdy_stall in R by auto. discriminate.
Qed.

Lemma stall01_m2 : forall s i, ostall2 s i = true -> stall01 p s i = true.
Proof. intros. rewrite stall01_eq, H, orb_true_r. auto. Qed.

Lemma noresp : forall s i, legal p s [] i -> i_mresp_en i = false.
Proof.
  intros s i L. destruct (i_mresp_en i) eqn:E; auto.
  destruct (lg_resp _ _ _ _ L E) as (m & l & Q & _). discriminate.
Qed.

Lemma ddnext_stall : forall s tr td,
  ddnext p (stall_st p s tr td (dnext p s) (ddnext p s)) = ddnext p s.
Proof.
  intros.
  change (sram_rd (dnext p s) (ddnext p s) (cs1_val p s) (cs1_wr p s) (drow1 p s) = ddnext p s).
  unfold sram_rd. unfold ddnext at 2. unfold sram_rd, dnext, sram_wr.
  unfold ddnext, sram_rd.
  destruct (cs1_val p s), (cs1_wr p s); cbn; auto.
Qed.

Lemma resp1_stall : forall s tr td,
  resp1 p (stall_st p s tr td (dnext p s) (ddnext p s)) = resp1 p s.
Proof.
  intros. unfold resp1. rewrite ddnext_stall. reflexivity.
Qed.

Lemma dnext_nowr : forall s, cs1_wr p s = false -> dnext p s = dram s.
Proof. intros. unfold dnext, sram_wr. rewrite H, andb_false_r. auto. Qed.

Lemma cs1_wr_false : forall s,
  match t1 s with TR_CACHE_INIT | TR_REFILL | TR_REPLAY_WRITE | TR_INIT_REQ | TR_WRITE_REQ => false | _ => true end = true ->
  cs1_wr p s = false.
Proof.
  intros s. unfold cs1_wr, cs1. destruct (t1 s); try discriminate; intros _; auto;
  destruct (is_evict1 p s); auto; destruct (hit1 p s); auto.
Qed.

Lemma stall_acyc : forall s a i, legal p s (a_outst a) i -> ostall2 s i = true ->
  i_mresp_en i = false ->
  acyc p a i (output p s i) a.
Proof.
  intros s a i L S R. destruct (out_stall p s i S) as [O1 O2].
  exists a, a, a. unfold o_recv, o_send, o_done, o_acc.
  rewrite R, O1, O2, (noreq_stall _ _ _ L (stall01_m2 _ _ S)). auto.
Qed.

(** M0 does nothing to the tags in these phases *)
Lemma tnext_nowr : forall s w k, cs0_wr p s idle_inp = false -> tnext p s w k = tram s w k.
Proof.
  intros. unfold tnext. rewrite tram_next. unfold sram_wr. rewrite H, andb_false_r. auto.
Qed.
Lemma cs0_wr_t : forall s i t, trans0 p s i = t ->
  match t with
  | TR_CACHE_INIT | TR_REFILL | TR_REPLAY_WRITE | TR_REPLAY_AMO | TR_CLEAN_HIT | TR_INIT_REQ
  | TR_INV_WRITE | TR_REPLAY_INV | TR_FLUSH_WRITE | TR_REPLAY_FLUSH => false
  | _ => true end = true -> cs0_wr p s i = false.
Proof. intros s i t E. unfold cs0_wr, cs0. rewrite E. destruct t; cbn; auto; discriminate. Qed.

Lemma whc_t : forall s, t1 s <> TR_WRITE_REQ -> write_hit_clean p s = false.
Proof.
  intros. unfold write_hit_clean. destruct (t1 s); cbn; try tauto; auto; now rewrite ?andb_false_r.
Qed.

Lemma trans0_ready_idle : forall s i, fsm s = F_READY -> mr_val s = false -> i_req_en i = false ->
  write_hit_clean p s = false -> trans0 p s i = TR_INVALID.
Proof. intros. unfold trans0. rewrite H, H0, H1, H2, andb_false_r. auto. Qed.

Lemma tnext_invalid : forall s w k, trans0 p s idle_inp = TR_INVALID -> tnext p s w k = tram s w k.
Proof. intros. apply tnext_nowr. eapply cs0_wr_t; eauto. Qed.

Lemma mr_val_mrv : forall s, mrv s = false -> mr_val s = false.
Proof. intros. unfold mr_val. rewrite H. auto. Qed.

Lemma outst_cur : forall a r todo out l,
  a_cur a = Some (mkCur r todo out l) -> a_outst a = out.
Proof. intros. unfold a_outst. rewrite H. auto. Qed.

Lemma idle_notwr : forall t, idle_t t = true -> t <> TR_WRITE_REQ.
Proof. intros t H Q; rewrite Q in H; discriminate. Qed.

Hint Resolve mr_val_mrv : core.

Lemma req_trans_cases : forall t, is_rw t || is_amo t = true ->
  (t = T_READ /\ req_trans t = TR_READ_REQ /\ is_rw t = true /\ is_amo t = false) \/
  (t = T_WRITE /\ req_trans t = TR_WRITE_REQ /\ is_rw t = true /\ is_amo t = false) \/
  (is_amo t = true /\ req_trans t = TR_AMO_REQ /\ is_rw t = false).
Proof.
  intros. unfold req_trans, is_rw in *.
  destruct (N.eqb_spec t T_READ); [subst; left; auto|].
  destruct (N.eqb_spec t T_WRITE); [subst; right; left; auto|].
  cbn in H. rewrite H. right; right; auto.
Qed.

Lemma st_notinit : forall t, is_rw t || is_amo t = true -> req_trans t <> TR_CACHE_INIT.
Proof.
  intros t H. destruct (req_trans_cases t H) as [(_ & -> & _) | [(_ & -> & _) | (_ & -> & _)]]; discriminate.
Qed.

Record same (s s' : st) : Prop := mkSame {
  sm_fsm : fsm s' = fsm s; sm_ctr : ctr s' = ctr s; sm_mrv : mrv s' = mrv s; sm_mrm : mrm s' = mrm s;
  sm_msn : msn s' = msn s; sm_msr : msr s' = msr s; sm_t1 : t1 s' = t1 s; sm_utw1 : utw1 s' = utw1 s;
  sm_q1 : q1 s' = q1 s; sm_fi1 : fi1 s' = fi1 s; sm_rep : rep s' = rep s; sm_t2 : t2 s' = t2 s;
  sm_ev2 : ev2 s' = ev2 s; sm_tagq : forall w, tagq s' w = tagq s w; sm_hitq : hitq p s' = hitq p s;
  sm_hsr : hsr_in p s' = hsr_in p s; sm_mem2 : mem2 p s' = mem2 p s; sm_resp2 : resp2 p s' = resp2 p s;
  sm_resp1 : resp1 p s' = resp1 p s; sm_dram : dram s' = dnext p s;
  sm_tram : forall w k, tram s' w k = tnext p s w k;
  sm_dnext : forall k, dnext p s' k = dnext p s k;
  sm_tnext : forall w k, tnext p s' w k = tnext p s w k
}.

Lemma stall_same : forall s i, ostall2 s i = true -> fsm s <> F_INIT -> t1 s <> TR_CACHE_INIT ->
  i_req_en i = false -> same s (next p s i).
Proof.
  intros s i S FI TI NR. pose proof (tram_indep p s i) as TI'. pose proof (tnext_stall p s i) as TN.
  rewrite (next_stalled p s i S FI TI).
  generalize dependent (tram (next p s i)). intros tr TI' TN. generalize (tdout (next p s i)). intros td.
  constructor.
  1-13: reflexivity.
  - intro; reflexivity.
  - reflexivity.
  - reflexivity.
  - reflexivity.
  - reflexivity.
  - apply resp1_stall.
  - reflexivity.
  - intros. cbn [stall_st tram]. apply TI'; assumption.
  - intros. apply dnext_stall.
  - intros. apply TN; assumption.
Qed.

Ltac stl S FI TI NR SM :=
  pose proof (stall_same _ _ S FI TI NR) as SM;
  match type of SM with same _ ?s' => generalize dependent s' end;
  intros ? SM.
Ltac fin SM := intros; rewrite ?(sm_fsm _ _ SM), ?(sm_ctr _ _ SM), ?(sm_mrv _ _ SM), ?(sm_mrm _ _ SM), ?(sm_msn _ _ SM), ?(sm_msr _ _ SM), ?(sm_t1 _ _ SM), ?(sm_utw1 _ _ SM), ?(sm_q1 _ _ SM), ?(sm_fi1 _ _ SM), ?(sm_rep _ _ SM), ?(sm_t2 _ _ SM), ?(sm_ev2 _ _ SM), ?(sm_tagq _ _ SM), ?(sm_hitq _ _ SM), ?(sm_hsr _ _ SM), ?(sm_mem2 _ _ SM), ?(sm_resp2 _ _ SM), ?(sm_resp1 _ _ SM), ?(sm_dram _ _ SM), ?(sm_tram _ _ SM), ?(sm_dnext _ _ SM), ?(sm_tnext _ _ SM).

Lemma stall_phase : forall s a i, phase p s a -> legal p s (a_outst a) i -> ostall2 s i = true ->
  exists a', acyc p a i (output p s i) a' /\ phase p (next p s i) a'.
Proof.
  intros s a i P L S.
  pose proof (noreq_stall _ _ _ L (stall01_m2 _ _ S)) as NR.
  pose proof S as ACT. rewrite ostall2_eq in ACT. apply andb_prop in ACT. destruct ACT as [ACT _].
  destruct P as [P | r P | r P | r P | r P | r k P | r P | r P | r k P | r k P | r k P].
  - (* idle *)
    destruct P.
        assert (FI : fsm s <> F_INIT) by (rewrite id_fsm; discriminate).
    assert (TI : t1 s <> TR_CACHE_INIT) by (intro Q; rewrite id_ci in ACT by auto; discriminate).
    exists a. split.
    { apply stall_acyc; auto. eapply noresp. unfold a_outst in L. rewrite id_cur in L. eauto. }
    apply P_idle. stl S FI TI NR SM. constructor; fin SM; try assumption; try (now eauto).
    + apply id_ci. rewrite <- (sm_t1 _ _ SM). auto.
    + intros. rewrite tnext_invalid; auto.
      apply trans0_ready_idle; auto. apply whc_t. apply idle_notwr; auto.
  - (* req *)
    destruct P.
    assert (FI : fsm s <> F_INIT) by (rewrite rq_fsm; discriminate).
    assert (TI : t1 s <> TR_CACHE_INIT) by (rewrite rq_t1; apply st_notinit; auto).
    exists a. split.
    { apply stall_acyc; auto. eapply noresp. erewrite outst_cur in L by eauto. eauto. }
    apply P_req with r. stl S FI TI NR SM.
    constructor; fin SM; try assumption; try (now eauto).
  - (* evict *)
    destruct P.
    assert (FI : fsm s <> F_INIT) by (rewrite ev_fsm; discriminate).
    assert (TI : t1 s <> TR_CACHE_INIT) by (rewrite ev_t1; apply st_notinit; auto).
    exists a. split.
    { apply stall_acyc; auto. eapply noresp. erewrite outst_cur in L by eauto. eauto. }
    assert (PE : tag_proc_en s = false) by (unfold tag_proc_en; rewrite ev_ev2; auto).
    assert (PU : pu p s = (false, false, 0)).
    { unfold pu, pu_compare. rewrite PE, andb_false_r. auto. }
    assert (HT : hit1 p s = false).
    { unfold hit1, pu_hit. rewrite PU. cbn. destruct (is_rwi1 s || is_amo1 s); auto. }
    apply P_evict with r. stl S FI TI NR SM.
    constructor; fin SM; try assumption; try (now eauto).
    + intros. rewrite tnext_invalid; auto.
      apply trans0_ready_idle; auto. unfold write_hit_clean. rewrite HT. cbn. now rewrite !andb_false_r.
    + intros. rewrite dnext_nowr; auto. unfold cs1_wr, cs1. rewrite HT.
      destruct (req_trans_cases _ ev_ty) as [(_ & Q & _) | [(_ & Q & _) | (_ & Q & _)]];
        rewrite ev_t1, Q; destruct (is_evict1 p s); auto.
  - (* wait *)
    destruct P.
    assert (FI : fsm s <> F_INIT) by (rewrite wt_fsm; discriminate).
    assert (TI : t1 s <> TR_CACHE_INIT) by (rewrite wt_t1; discriminate).
    destruct wt_cur as [(M & R2 & MV & out & l & AK & CU) | [(T2 & _) | (T2 & _)]];
      [ | rewrite T2 in ACT; discriminate | rewrite T2 in ACT; discriminate].
    assert (PH : forall a', a_c a' = a_c a -> a_pend a' = [] ->
              (exists out l, acks out /\ a_cur a' = Some (mkCur r [main_req p (a_c a) r] out l)) ->
              phase p (next p s i) a').
    { intros a' CA PA CU'. apply P_wait with r. stl S FI TI NR SM.
      constructor; fin SM; rewrite ?CA; try assumption; try (now eauto).
      + intros. rewrite tnext_invalid; auto.
        apply trans0_ready_idle; auto. apply whc_t. rewrite wt_t1. discriminate.
      + intros. rewrite dnext_nowr; auto. apply cs1_wr_false. rewrite wt_t1. auto.
      + left. split; [|split; [|split]]; auto. revert MV. unfold mr_val. fin SM. auto.
    }
    destruct (i_mresp_en i) eqn:RE.
    + erewrite outst_cur in L by eauto.
      destruct (lg_resp _ _ _ _ L RE) as (m & l' & Q & TY). subst out.
      exists (mkA (a_c a) (Some (mkCur r [main_req p (a_c a) r] l' (mr_data (i_mresp i)))) (a_pend a)).
      split.
      * destruct (out_stall p s i S) as [O1 O2].
        eexists _, _, _. unfold o_recv, o_send, o_done, o_acc. rewrite RE, O1, O2, NR.
        split; [|split; [reflexivity|split; [right; reflexivity | reflexivity]]].
        destruct a as [c u pd]. cbn in CU. subst u. cbn. constructor; auto.
      * apply PH; auto. cbn. exists l', (mr_data (i_mresp i)). split; auto.
        inversion AK; auto.
    + exists a. split; [apply stall_acyc; auto|]. apply PH; auto. eauto.
  - (* refill *)
    destruct P. rewrite rf_t2 in ACT. discriminate.
  - (* inv *)
    destruct P.
    assert (FI : fsm s <> F_INIT) by (rewrite iv_fsm; discriminate).
    assert (TI : t1 s <> TR_CACHE_INIT) by (destruct iv_t1 as [(Q & _) | (Q & _)]; rewrite Q; discriminate).
    exists a. split.
    { apply stall_acyc; auto. eapply noresp. erewrite outst_cur in L by eauto. eauto. }
    apply P_inv with r k. stl S FI TI NR SM.
    constructor; fin SM; try assumption; try (now eauto).
    + intros. rewrite dnext_nowr; auto. apply cs1_wr_false.
      destruct iv_t1 as [(Q & _) | (Q & _)]; rewrite Q; auto.
  - (* invl *)
    destruct P.
    assert (FI : fsm s <> F_INIT) by (rewrite il_fsm; discriminate).
    assert (TI : t1 s <> TR_CACHE_INIT) by (rewrite il_t1; discriminate).
    exists a. split.
    { apply stall_acyc; auto. eapply noresp. erewrite outst_cur in L by eauto. eauto. }
    apply P_invl with r. stl S FI TI NR SM.
    constructor; fin SM; try assumption; try (now eauto).
    + intros. rewrite dnext_nowr; auto. apply cs1_wr_false. rewrite il_t1; auto.
  - (* flstart *)
    destruct P.
    assert (FI : fsm s <> F_INIT) by (rewrite fs_fsm; discriminate).
    assert (TI : t1 s <> TR_CACHE_INIT) by (rewrite fs_t1; discriminate).
    exists a. split.
    { apply stall_acyc; auto. eapply noresp. erewrite outst_cur in L by eauto. eauto. }
    apply P_flstart with r. stl S FI TI NR SM.
    constructor; fin SM; try assumption; try (now eauto).
    + intros. rewrite tnext_nowr; auto.
      eapply cs0_wr_t with (t := TR_FLUSH_READ); auto.
      unfold trans0, has_flush_sent1. rewrite fs_fsm, fs_t1, whc_t by (rewrite fs_t1; discriminate). auto.
    + intros. rewrite dnext_nowr; auto. apply cs1_wr_false. rewrite fs_t1; auto.
  - (* flrd *)
    destruct P. destruct fr_c. destruct fr_cur as (l & CU).
    assert (FI : fsm s <> F_INIT) by (rewrite fr_fsm; destruct (k =? 0); discriminate).
    assert (TI : t1 s <> TR_CACHE_INIT) by (rewrite fl_t1; discriminate).
    exists a. split.
    { apply stall_acyc; auto. eapply noresp. erewrite outst_cur in L by eauto. eauto. }
    apply P_flrd with r k. stl S FI TI NR SM.
    constructor; [constructor|..]; fin SM; try assumption; try (now eauto).
    + intros. rewrite dnext_nowr; auto. apply cs1_wr_false. rewrite fl_t1; auto.
  - (* flwait *)
    destruct P. destruct fw_c.
    destruct fw_cur as [(opq & e & l & M & R2N & MV & E & CU & T) | [(m & l & T2 & _) | (l & T2 & _)]];
      [ | rewrite T2 in ACT; discriminate | rewrite T2 in ACT; discriminate].
    assert (FI : fsm s <> F_INIT) by (rewrite fw_fsm; discriminate).
    assert (TI : t1 s <> TR_CACHE_INIT) by (rewrite fl_t1; discriminate).
    exists a. split.
    { apply stall_acyc; auto. eapply noresp. erewrite outst_cur in L by eauto. eauto. }
    apply P_flwait with r k. stl S FI TI NR SM.
    constructor; [constructor|..]; fin SM; try assumption; try (now eauto).
    + intros. rewrite dnext_nowr; auto. apply cs1_wr_false. rewrite fl_t1; auto.
    + left. exists opq, e, l. split; auto. split; [fin SM; assumption|]. split; auto. split; auto. split; auto.
      fin SM. auto.
  - (* flwr *)
    destruct P. rewrite fx_t2 in ACT. discriminate.
Qed.
End S.
