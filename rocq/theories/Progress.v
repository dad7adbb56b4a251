(** Progress (C15): a measure on states that falls in every cycle in which both
    sides are ready and memory is not behind. *)
From Coq Require Import NArith PeanoNat List Bool Lia.
From Verif Require Import Bits Params Msg Units Rtl Mem Tl ParamsProofs RtlLemmas RefineInv RefineStall RefineReq RefineAdv1 RefineAdv2 RefineAdv3
  RefineProofs Spec System SysProofs SysFacts Facts1 Facts2.
Import ListNotations.
Open Scope N_scope.

Section P.
Variable p : params.
Hypothesis W : wf_params p.

(** the line a flush is at, from the line counter, which is one ahead *)
Definition fline (s : st) : N := if ctr s =? last_line p then 0 else ctr s + 1.

(** Cycles needed at most until the response of the current request is in M1
    (plus three), [n] memory requests being outstanding. *)
Definition core (s : st) (n : N) : N :=
  match t1 s with
  | TR_READ_REQ | TR_WRITE_REQ | TR_AMO_REQ => if ev2 s then 8 else 9
  | TR_FLUSH_START => 5 * total_lines p + 3
  | TR_FLUSH_READ => 5 * fline s + 7
  | TR_FLUSH_WRITE => 5 * fline s + 3
  | _ =>
    match fsm s with
    | F_READY => if mr_val s then 4 else match mem2 p s with Some _ => 6 + n | None => 4 + n end
    | F_INV => 4 + ctr s
    | F_FLUSH_WAIT => if mrv s then 5 * fline s + 4
                      else match mem2 p s with Some _ => 5 * fline s + 6 | None => 5 * fline s + 5 end
    | _ => 3
    end
  end.
Definition is_some {A} (o : option A) : bool := match o with Some _ => true | None => false end.
Definition mu (s : st) (n : N) : N :=
  if is_some (resp2 p s) then 1 else if is_some (resp1 p s) then 2 else core s n.

Lemma core_ge : forall s n, 3 <= core s n.
Proof.
  intros s n. pose proof (total_ge2 p W). unfold core.
  destruct (t1 s); try (destruct (ev2 s)); try lia; destruct (fsm s); try lia;
    try (destruct (mr_val s)); try (destruct (mrv s)); try (destruct (mem2 p s)); lia.
Qed.
Lemma mu_pos : forall s n, 1 <= mu s n.
Proof. intros s n. pose proof (core_ge s n). unfold mu. destruct (is_some (resp2 p s)), (is_some (resp1 p s)); lia. Qed.
Lemma mu_le : forall s n, mu s n <= core s n.
Proof. intros s n. pose proof (core_ge s n). unfold mu. destruct (is_some (resp2 p s)), (is_some (resp1 p s)); lia. Qed.

Lemma fline_prev : forall s k, k < total_lines p -> ctr s = prev_line p k -> fline s = k.
Proof.
  intros s k K C. pose proof (total_ge2 p W). unfold fline. rewrite C. unfold prev_line.
  destruct (N.eqb_spec k 0) as [E|E].
  - rewrite N.eqb_refl. auto.
  - destruct (N.eqb_spec (k - 1) (last_line p)) as [E'|E']; unfold last_line in *; lia.
Qed.

(** an answer ends up in M1 *)
Definition reply_t (t : trans) : bool :=
  match t with TR_REPLAY_READ | TR_REPLAY_WRITE | TR_REPLAY_AMO | TR_REPLAY_INV | TR_REPLAY_FLUSH => true | _ => false end.
Lemma reply_resp1 : forall s, reply_t (t1 s) = true -> is_some (resp1 p s) = true.
Proof.
  intros s H. unfold resp1. assert (Q : quiet_t (t1 s) = true) by (destruct (t1 s); auto; discriminate).
  rewrite (quiet_evict p s Q). destruct (t1 s); try discriminate; reflexivity.
Qed.
Lemma reply_mu : forall s n, reply_t (t1 s) = true -> mu s n <= 2.
Proof. intros s n H. unfold mu. rewrite (reply_resp1 _ H). destruct (is_some (resp2 p s)); lia. Qed.

Definition len (l : list mreq) : N := N.of_nat (length l).
Lemma len_next : forall out i o, len (outst_next out i o) <= len out + (if is_some (o_mreq o) then 1 else 0).
Proof.
  intros. unfold outst_next, len. rewrite app_length. destruct (o_mreq o), (i_mresp_en i), out; cbn [ol length tl is_some]; lia.
Qed.
Lemma len_same : forall l, len l = N.of_nat (length l). Proof. auto. Qed.

(** One cycle without a stall. *)
Lemma advance : forall s a i, phase p s a -> legal p s (a_outst a) i -> ostall2 s i = false ->
  resp2 p s = None -> (a_cur a <> None \/ a_pend a <> []) ->
  let n := len (a_outst a) in let n' := len (outst_next (a_outst a) i (output p s i)) in
  mu (next p s i) n' <= mu s n /\
  (a_outst a = [] \/ i_mresp_en i = true -> mu (next p s i) n' < mu s n).
Proof.
  intros s a i PH LG S R2 FL n n'.
  assert (ST : mu (next p s i) n' < mu s n -> mu (next p s i) n' <= mu s n /\
     (a_outst a = [] \/ i_mresp_en i = true -> mu (next p s i) n' < mu s n)) by (intros; split; intros; lia).
  pose proof (mu_le (next p s i) n') as ML. pose proof (core_ge s n) as CG.
  destruct (out_nostall p s i S) as [OR OM].
  destruct (is_some (resp1 p s)) eqn:R1.
  { apply ST. unfold mu at 2. rewrite R2. cbn [is_some]. rewrite R1.
    unfold mu. rewrite (an_resp2 p s i S). fold (resp1 p s). rewrite R1. lia. }
  assert (MU : mu s n = core s n) by (unfold mu; rewrite R2; cbn [is_some]; rewrite R1; auto).
  rewrite MU in *.
  assert (RP : reply_t (t1 (next p s i)) = true -> mu (next p s i) n' < core s n).
  { intros H. pose proof (reply_mu (next p s i) n' H). lia. }
  pose proof (total_ge2 p W) as G2.
  destruct PH as [P | r P | r P | r P | r P | r k P | r P | r P | r k P | r k P | r k P].
  - (* idle: nothing in flight *)
    exfalso. rewrite (id_cur _ _ _ P), (id_pend _ _ _ P), R2 in FL. cbn [ol app] in FL.
    destruct (resp1 p s); [discriminate|]. cbn [ol] in FL. destruct FL; congruence.
  - apply ST. destruct P. assert (O : a_outst a = []) by (eapply outst_cur; eauto). rewrite O in LG.
    assert (NM : i_mresp_en i = false) by (eapply noresp; eauto).
    assert (LK : looking p s (a_c a) r) by (constructor; auto).
    assert (FI : fsm s <> F_INIT) by (rewrite rq_fsm; discriminate).
    assert (NN : n' = 0).
    { unfold n'. rewrite O. unfold outst_next. rewrite NM, OM, rq_mem2. auto. }
    assert (CC : core s n = 9).
    { unfold core. rewrite rq_t1, rq_ev2.
      destruct (req_trans_cases _ rq_ty) as [(_ & -> & _) | [(_ & -> & _) | (_ & -> & _)]]; auto. }
    rewrite CC in *. clear CC.
    destruct (is_evict1 p s) eqn:EV.
    + destruct (ae_regs p s i) as (E1 & E2 & E3 & E4 & E5 & E6 & E7 & E8); auto.
      assert (CC : core (next p s i) n' = 8).
      { unfold core. rewrite E7, rq_t1, (an_ev2 p s i S), EV.
        destruct (req_trans_cases _ rq_ty) as [(_ & -> & _) | [(_ & -> & _) | (_ & -> & _)]]; auto. }
      lia.
    + assert (HN : tl_hit p (a_c a) r = false \/ is_amo (cq_type r) = true).
      { pose proof (req_trans_cases _ rq_ty) as RT. destruct (is_amo (cq_type r)) eqn:A; auto. left.
        destruct (tl_hit p (a_c a) r) eqn:H; auto. exfalso.
        unfold resp1 in R1. rewrite EV, (lw_hit1 p s _ r LK), H, rq_t1 in R1.
        destruct RT as [(_ & E & _) | [(_ & E & _) | (E & _)]]; try congruence; rewrite E in R1; discriminate R1. }
      assert (AL : cs1_alloc p s = true).
      { rewrite (lw_alloc p s _ r LK). destruct HN as [-> | ->]; rewrite ?orb_true_r; auto. }
      assert (RE : i_req_en i = false) by (eapply noreq_alloc; eauto).
      assert (MVf : mr_val s = false) by (apply mr_val_mrv; auto).
      assert (WH : write_hit_clean p s = false).
      { rewrite (lw_whc p s _ r LK). destruct HN as [-> | A]; rewrite ?andb_false_r; auto.
        rewrite (rw_not_amo p s _ r LK), A. auto. }
      assert (TR : trans0 p s i = TR_INVALID) by (apply trans0_ready_idle; auto).
      assert (CC : core (next p s i) n' <= 6).
      { unfold core. rewrite (an_t1 p s i S EV), TR, (an_fsm p s i S EV). unfold fsm_next. rewrite rq_fsm, MVf, RE, andb_false_r.
        cbn [andb]. destruct (mr_val (next p s i)); [lia|]. destruct (mem2 p (next p s i)); lia. }
      lia.
  - apply ST. destruct P. assert (O : a_outst a = []) by (eapply outst_cur; eauto). rewrite O in LG.
    assert (NM : i_mresp_en i = false) by (eapply noresp; eauto).
    assert (NN : n' = 1).
    { unfold n'. rewrite O. unfold outst_next. rewrite NM, OM, ev_mem2. auto. }
    assert (CC : core s n = 8).
    { unfold core. rewrite ev_t1, ev_ev2.
      destruct (req_trans_cases _ ev_ty) as [(_ & -> & _) | [(_ & -> & _) | (_ & -> & _)]]; auto. }
    rewrite CC in *. clear CC.
    assert (FI : fsm s <> F_INIT) by (rewrite ev_fsm; discriminate).
    assert (TP : tag_proc_en s = false) by (unfold tag_proc_en; rewrite ev_ev2; auto).
    assert (PU : pu p s = (false, false, 0)) by (unfold pu, pu_compare; rewrite TP, andb_false_r; auto).
    assert (H1 : hit1 p s = false) by (unfold hit1, pu_hit; rewrite PU; cbn; destruct (is_rwi1 s || is_amo1 s); auto).
    assert (LD : forall w, pu_ld p s w = false) by (intro; unfold pu_ld, line_dirty; rewrite TP; auto).
    assert (EV : is_evict1 p s = false).
    { unfold is_evict1, is_dty1. rewrite H1, !LD. destruct (is_rwi1 s), (is_amo1 s); cbn; auto; rewrite ?andb_false_r; auto. }
    assert (MVf : mr_val s = false) by (apply mr_val_mrv; auto).
    assert (WH : write_hit_clean p s = false).
    { unfold write_hit_clean. rewrite H1. cbn. rewrite !andb_false_r. auto. }
    assert (AL : cs1_alloc p s = true).
    { unfold cs1_alloc, cs1. rewrite EV, H1, ev_t1.
      destruct (req_trans_cases _ ev_ty) as [(_ & E & _) | [(_ & E & _) | (_ & E & _)]]; rewrite E; auto. }
    assert (RE : i_req_en i = false) by (eapply noreq_alloc; eauto).
    assert (TR : trans0 p s i = TR_INVALID) by (apply trans0_ready_idle; auto).
    assert (CC : core (next p s i) n' <= 7).
    { unfold core. rewrite (an_t1 p s i S EV), TR, (an_fsm p s i S EV). unfold fsm_next. rewrite ev_fsm, MVf, RE, andb_false_r.
      cbn [andb]. destruct (mr_val (next p s i)); [lia|]. destruct (mem2 p (next p s i)); lia. }
    lia.
  - destruct P.
    assert (FI : fsm s <> F_INIT) by (rewrite wt_fsm; discriminate).
    pose proof (noreq_msn _ _ _ _ LG wt_msn) as RE.
    assert (Q : quiet_t (t1 s) = true) by (rewrite wt_t1; auto).
    pose proof (quiet_evict p s Q) as EV. pose proof (quiet_whc p s Q) as WH.
    assert (MT : mshr_type s = cq_type r) by (unfold mshr_type; rewrite wt_msr; auto).
    assert (M2' : mem2 p (next p s i) = None) by (rewrite (an_mem2 p s i S), wt_t1; auto).
    assert (MV' : mr_val (next p s i) = i_mresp_en i && negb (mr_type (i_mresp i) =? T_WRITE)).
    { unfold mr_val. rewrite an_mrv, an_mrm by auto. auto. }
    assert (STAY : mr_val s = false -> core (next p s i) n' = if mr_val (next p s i) then 4 else 4 + n').
    { intros MV. unfold core. rewrite (an_t1 p s i S EV), (trans0_ready_idle p s i), (an_fsm p s i S EV) by auto.
      unfold fsm_next. rewrite wt_fsm, MV, RE, andb_false_r, M2'. auto. }
    assert (CC : core s n = if mr_val s then 4 else match mem2 p s with Some _ => 6 + n | None => 4 + n end)
      by (unfold core; rewrite wt_t1, wt_fsm; auto).
    rewrite CC in *. clear CC.
    destruct wt_cur as [(M2 & _ & MV & out & l & AK & CU) | [(T2 & MV & out & m & l & AK & MN & CU) | (T2 & MV & CU)]].
    + apply ST. rewrite (STAY MV) in ML. rewrite MV, M2 in *.
      pose proof (len_next (a_outst a) i (output p s i)) as LN. fold n n' in LN. rewrite OM in LN. cbn [is_some] in LN.
      destruct (mr_val (next p s i)); lia.
    + rewrite (STAY MV) in ML. destruct (m2_inactive p s) as [_ M2]; [rewrite T2; auto|]. rewrite MV, M2 in *.
      assert (N1 : 1 <= n).
      { unfold n, a_outst, len. rewrite CU. cbn [u_out]. rewrite app_length. cbn [length]. lia. }
      assert (NN : n' = if i_mresp_en i then n - 1 else n).
      { unfold n', n, outst_next, len. rewrite OM. cbn [ol]. rewrite app_nil_r. destruct (i_mresp_en i); auto.
        destruct (a_outst a); auto. cbn [tl length]. lia. }
      destruct (i_mresp_en i); cbn [andb] in MV'.
      * apply ST. destruct (mr_val (next p s i)); lia.
      * rewrite MV' in ML. split; [lia|]. intros [O | X]; [|discriminate]. exfalso.
        unfold n, len in N1. rewrite O in N1. cbn in N1. lia.
    + apply ST. rewrite MV in *.
      destruct (is_amo (cq_type r)) eqn:A.
      * apply RP. rewrite (an_t1 p s i S EV). unfold trans0, mshr_empty. rewrite wt_fsm, WH, MV, MT, wt_msn, A. cbn [andb negb N.eqb].
        destruct (N.eqb_spec (cq_type r) T_WRITE) as [E|E]; [rewrite E in A; discriminate|].
        destruct (N.eqb_spec (cq_type r) T_READ) as [E'|E']; [rewrite E' in A; discriminate|]. auto.
      * assert (RW : (cq_type r =? T_WRITE) || (cq_type r =? T_READ) = true).
        { rewrite orb_comm. rewrite orb_false_r in wt_ty. exact wt_ty. }
        assert (CC : core (next p s i) n' = 3).
        { unfold core. rewrite (an_t1 p s i S EV), (an_fsm p s i S EV). unfold trans0, fsm_next, mshr_empty.
          rewrite wt_fsm, WH, MV, MT, wt_msn, RW. auto. }
        lia.
  - apply ST, RP. destruct P.
    assert (Q : quiet_t (t1 s) = true) by (rewrite rf_t1; auto).
    pose proof (quiet_evict p s Q) as EV. pose proof (quiet_whc p s Q) as WH.
    assert (MT : mshr_type s = cq_type r) by (unfold mshr_type; rewrite rf_msr; auto).
    rewrite (an_t1 p s i S EV). unfold trans0, mshr_empty. rewrite rf_fsm, WH, MT, rf_msn. cbn [andb negb N.eqb].
    unfold is_rw in rf_ty. apply orb_prop in rf_ty. destruct rf_ty as [E|E]; apply N.eqb_eq in E; rewrite E; auto.
  - apply ST. destruct P.
    assert (Q : quiet_t (t1 s) = true) by (destruct iv_t1 as [(-> & _) | (-> & _)]; auto).
    pose proof (quiet_evict p s Q) as EV. pose proof (quiet_whc p s Q) as WH.
    assert (CC : core s n = 4 + k) by (unfold core; rewrite iv_fsm, iv_ctr; destruct iv_t1 as [(-> & _) | (-> & _)]; auto).
    rewrite CC in *. clear CC.
    assert (CC : core (next p s i) n' = if k =? 0 then 3 else 4 + (k - 1)).
    { unfold core. rewrite (an_t1 p s i S EV), (an_fsm p s i S EV), (an_ctr p s i S EV).
      replace (trans0 p s i) with TR_INV_WRITE by (unfold trans0; rewrite iv_fsm, WH; auto).
      unfold fsm_next, ctr_en. rewrite iv_fsm, iv_ctr. cbn [fsm_eqb orb].
      rewrite ctr_dec_prev by (auto; rewrite iv_ctr; auto). rewrite iv_ctr. unfold prev_line.
      destruct (k =? 0); auto. }
    destruct (N.eqb_spec k 0); lia.
  - apply ST, RP. destruct P.
    assert (Q : quiet_t (t1 s) = true) by (rewrite il_t1; auto).
    pose proof (quiet_evict p s Q) as EV. pose proof (quiet_whc p s Q) as WH.
    assert (MT : mshr_type s = T_INV) by (unfold mshr_type; rewrite il_msr; auto).
    rewrite (an_t1 p s i S EV). unfold trans0, mshr_empty. rewrite il_fsm, WH, MT, il_msn. auto.
  - apply ST. destruct P.
    assert (Q : quiet_t (t1 s) = true) by (rewrite fs_t1; auto).
    pose proof (quiet_evict p s Q) as EV. pose proof (quiet_whc p s Q) as WH.
    assert (HF : has_flush_sent1 p s = false) by (unfold has_flush_sent1; rewrite fs_t1; auto).
    assert (TR : trans0 p s i = TR_FLUSH_READ) by (unfold trans0; rewrite fs_fsm, WH, HF; auto).
    assert (LL : last_line p < total_lines p) by (unfold last_line; lia).
    assert (CT : ctr (next p s i) = prev_line p (last_line p)).
    { rewrite an_ctr by auto. unfold ctr_en. rewrite fs_fsm, TR. cbn [fsm_eqb trans_eqb orb].
      rewrite ctr_dec_prev by (auto; rewrite fs_ctr; auto). rewrite fs_ctr. auto. }
    assert (CC : core (next p s i) n' = 5 * last_line p + 7).
    { unfold core. rewrite (an_t1 p s i S EV), TR, (fline_prev _ _ LL CT). auto. }
    assert (C0 : core s n = 5 * total_lines p + 3) by (unfold core; rewrite fs_t1; auto).
    unfold last_line in CC. lia.
  - apply ST. destruct P. destruct fr_c.
    assert (Q : quiet_t (t1 s) = true) by (rewrite fl_t1; auto).
    pose proof (quiet_evict p s Q) as EV. pose proof (quiet_whc p s Q) as WH.
    assert (MT : mshr_type s = T_FLUSH) by (unfold mshr_type; rewrite fl_msr; auto).
    assert (C0 : core s n = 5 * k + 7) by (unfold core; rewrite fl_t1, (fline_prev _ _ fl_k fl_ctr); auto).
    rewrite C0 in *. clear C0.
    assert (MK : mr_ack s = false) by (unfold mr_ack; rewrite fr_mrv; auto).
    destruct (pu_ld p s (utw1 s)) eqn:LD.
    + assert (HF : has_flush_sent1 p s = true) by (unfold has_flush_sent1; rewrite fl_t1, LD; auto).
      assert (PD : prev_flush_done p s = false).
      { unfold prev_flush_done, no_flush_needed1, flush_refill_bypass. rewrite fl_t1, LD, MK. auto. }
      assert (X : trans0 p s i = TR_FLUSH_WAIT /\ fsm_next p s i = F_FLUSH_WAIT).
      { unfold trans0, fsm_next. rewrite fr_fsm, WH. destruct (k =? 0).
        - unfold mshr_empty. rewrite MT, fl_msn, PD. auto.
        - rewrite HF. auto. }
      destruct X as [TR FN].
      assert (CT : ctr (next p s i) = prev_line p k).
      { rewrite an_ctr by auto. unfold ctr_en. rewrite fr_fsm, TR. destruct (k =? 0); auto. }
      assert (CC : core (next p s i) n' <= 5 * k + 6).
      { unfold core. rewrite (an_t1 p s i S EV), TR, (an_fsm p s i S EV), FN, (fline_prev _ _ fl_k CT).
        destruct (mrv (next p s i)); [lia|]. destruct (mem2 p (next p s i)); lia. }
      lia.
    + destruct (N.eqb_spec k 0) as [K0|K0].
      * apply RP. rewrite (an_t1 p s i S EV). unfold trans0, mshr_empty. rewrite fr_fsm, WH, MT, fl_msn.
        unfold prev_flush_done, no_flush_needed1. rewrite fl_t1, LD. auto.
      * assert (HF : has_flush_sent1 p s = false) by (unfold has_flush_sent1; rewrite fl_t1, LD; auto).
        assert (TR : trans0 p s i = TR_FLUSH_READ) by (unfold trans0; rewrite fr_fsm, WH, HF; auto).
        assert (PK : prev_line p k = k - 1) by (unfold prev_line; destruct (N.eqb_spec k 0); lia).
        assert (CT : ctr (next p s i) = prev_line p (k - 1)).
        { rewrite an_ctr by auto. unfold ctr_en. rewrite fr_fsm, TR. cbn [fsm_eqb trans_eqb orb].
          rewrite ctr_dec_prev by (auto; rewrite fl_ctr, PK; lia). rewrite fl_ctr, PK. auto. }
        assert (CC : core (next p s i) n' = 5 * (k - 1) + 7).
        { unfold core. rewrite (an_t1 p s i S EV), TR, (fline_prev _ (k - 1) ltac:(lia) CT). auto. }
        lia.
  - destruct P. destruct fw_c.
    assert (Q : quiet_t (t1 s) = true) by (rewrite fl_t1; auto).
    pose proof (quiet_evict p s Q) as EV. pose proof (quiet_whc p s Q) as WH.
    assert (M2' : mem2 p (next p s i) = None) by (rewrite (an_mem2 p s i S), fl_t1; auto).
    assert (C0 : core s n = if mrv s then 5 * k + 4 else match mem2 p s with Some _ => 5 * k + 6 | None => 5 * k + 5 end).
    { unfold core. rewrite fl_t1, fw_fsm, (fline_prev _ _ fl_k fl_ctr); auto. }
    rewrite C0 in *. clear C0.
    assert (STAY : mrv s = false -> core (next p s i) n' = if i_mresp_en i then 5 * k + 4 else 5 * k + 5).
    { intros MV. assert (MK : mr_ack s = false) by (unfold mr_ack; rewrite MV; auto).
      assert (TR : trans0 p s i = TR_FLUSH_WAIT) by (unfold trans0; rewrite fw_fsm, WH, MK; auto).
      assert (CT : ctr (next p s i) = prev_line p k).
      { rewrite an_ctr by auto. unfold ctr_en. rewrite fw_fsm, TR. auto. }
      unfold core. rewrite (an_t1 p s i S EV), TR, (an_fsm p s i S EV), (an_mrv p s i S EV), M2', (fline_prev _ _ fl_k CT).
      unfold fsm_next. rewrite fw_fsm, MK. auto. }
    destruct fw_cur as [(opq & e & l & M2 & _ & MV & _ & CU & _) | [(m & l & T2 & MV & _ & CU & _) | (l & T2 & MV & TY & CU & _)]].
    + apply ST. rewrite (STAY MV) in ML. rewrite MV, M2 in *. destruct (i_mresp_en i); lia.
    + rewrite (STAY MV) in ML. destruct (m2_inactive p s) as [_ M2]; [rewrite T2; auto|]. rewrite MV, M2 in *.
      destruct (i_mresp_en i).
      * apply ST. lia.
      * split; [lia|]. intros [O|X]; [|discriminate]. exfalso. unfold a_outst in O. rewrite CU in O. discriminate.
    + apply ST. rewrite MV in *.
      assert (MK : mr_ack s = true) by (unfold mr_ack; rewrite MV, TY; auto).
      assert (TR : trans0 p s i = TR_FLUSH_WRITE) by (unfold trans0; rewrite fw_fsm, WH, MK; auto).
      assert (CT : ctr (next p s i) = prev_line p k).
      { rewrite an_ctr by auto. unfold ctr_en. rewrite fw_fsm, TR. auto. }
      assert (CC : core (next p s i) n' = 5 * k + 3).
      { unfold core. rewrite (an_t1 p s i S EV), TR, (fline_prev _ _ fl_k CT). auto. }
      lia.
  - apply ST. destruct P. destruct fx_c.
    assert (Q : quiet_t (t1 s) = true) by (rewrite fl_t1; auto).
    pose proof (quiet_evict p s Q) as EV. pose proof (quiet_whc p s Q) as WH.
    assert (MT : mshr_type s = T_FLUSH) by (unfold mshr_type; rewrite fl_msr; auto).
    assert (C0 : core s n = 5 * k + 3) by (unfold core; rewrite fl_t1, (fline_prev _ _ fl_k fl_ctr); auto).
    rewrite C0 in *. clear C0.
    destruct (N.eqb_spec k 0) as [K0|K0].
    * apply RP. rewrite (an_t1 p s i S EV). unfold trans0, mshr_empty. rewrite fx_fsm, WH, MT, fl_msn.
      unfold prev_flush_done, flush_refill_bypass. rewrite fl_t1, orb_true_r. auto.
    * assert (HF : has_flush_sent1 p s = false) by (unfold has_flush_sent1; rewrite fl_t1; auto).
      assert (TR : trans0 p s i = TR_FLUSH_READ) by (unfold trans0; rewrite fx_fsm, WH, HF; auto).
      assert (PK : prev_line p k = k - 1) by (unfold prev_line; destruct (N.eqb_spec k 0); lia).
      assert (CT : ctr (next p s i) = prev_line p (k - 1)).
      { rewrite an_ctr by auto. unfold ctr_en. rewrite fx_fsm, TR. cbn [fsm_eqb trans_eqb orb].
        rewrite ctr_dec_prev by (auto; rewrite fl_ctr, PK; lia). rewrite fl_ctr, PK. auto. }
      assert (CC : core (next p s i) n' = 5 * (k - 1) + 7).
      { unfold core. rewrite (an_t1 p s i S EV), TR, (fline_prev _ (k - 1) ltac:(lia) CT). auto. }
      lia.
Qed.

Lemma core_mono : forall s n n', n' <= n -> core s n' <= core s n.
Proof.
  intros s n n' H. unfold core. destruct (t1 s); try lia; destruct (fsm s); try lia; destruct (mr_val s); try lia; destruct (mem2 p s); lia.
Qed.
Lemma mu_mono : forall s n n', n' <= n -> mu s n' <= mu s n.
Proof. intros s n n' H. pose proof (core_mono s n n' H). unfold mu. destruct (is_some (resp2 p s)), (is_some (resp1 p s)); lia. Qed.

Lemma stalled : forall s a i, phase p s a -> legal p s (a_outst a) i -> ostall2 s i = true ->
  mu (next p s i) (len (outst_next (a_outst a) i (output p s i))) <= mu s (len (a_outst a)).
Proof.
  intros s a i PH LG S.
  assert (FI : fsm s <> F_INIT /\ t1 s <> TR_CACHE_INIT).
  { destruct PH as [P | r P | r P | r P | r P | r k P | r P | r P | r k P | r k P | r k P].
    - rewrite (id_fsm _ _ _ P). split; [discriminate|]. intros E. pose proof (id_ci _ _ _ P E) as X.
      rewrite ostall2_eq, X in S. discriminate.
    - rewrite (rq_fsm _ _ _ _ P), (rq_t1 _ _ _ _ P). split; [discriminate | apply st_notinit; apply (rq_ty _ _ _ _ P)].
    - rewrite (ev_fsm _ _ _ _ P), (ev_t1 _ _ _ _ P). split; [discriminate | apply st_notinit; apply (ev_ty _ _ _ _ P)].
    - rewrite (wt_fsm _ _ _ _ P), (wt_t1 _ _ _ _ P). split; discriminate.
    - rewrite (rf_fsm _ _ _ _ P), (rf_t1 _ _ _ _ P). split; discriminate.
    - rewrite (iv_fsm _ _ _ _ _ P). destruct (iv_t1 _ _ _ _ _ P) as [(-> & _) | (-> & _)]; split; discriminate.
    - rewrite (il_fsm _ _ _ _ P), (il_t1 _ _ _ _ P). split; discriminate.
    - rewrite (fs_fsm _ _ _ _ P), (fs_t1 _ _ _ _ P). split; discriminate.
    - rewrite (fr_fsm _ _ _ _ _ P), (fl_t1 _ _ _ _ _ _ (fr_c _ _ _ _ _ P)). destruct (k =? 0); split; discriminate.
    - rewrite (fw_fsm _ _ _ _ _ P), (fl_t1 _ _ _ _ _ _ (fw_c _ _ _ _ _ P)). split; discriminate.
    - rewrite (fx_fsm _ _ _ _ _ P), (fl_t1 _ _ _ _ _ _ (fx_c _ _ _ _ _ P)). destruct (k =? 0); split; discriminate. }
  destruct FI as [FI TI].
  assert (RE : i_req_en i = false) by (eapply noreq_stall; eauto; rewrite stall01_eq, S; apply orb_true_r).
  destruct (out_stall p s i S) as [_ OM].
  pose proof (len_next (a_outst a) i (output p s i)) as LN. rewrite OM in LN. cbn [is_some] in LN. rewrite N.add_0_r in LN.
  pose proof (stall_same p s i S FI TI RE) as SM. destruct SM.
  transitivity (mu s (len (outst_next (a_outst a) i (output p s i)))); [|apply mu_mono; auto].
  generalize (len (outst_next (a_outst a) i (output p s i))). intros n.
  apply N.eq_le_incl. unfold mu, core, fline, mr_val. rewrite sm_resp2, sm_resp1, sm_t1, sm_ev2, sm_fsm, sm_ctr, sm_mrv, sm_mrm, sm_mem2. auto.
Qed.

(** Any measure is at most [5 * total_lines + 3]. *)
Lemma mu_bound : forall s a, phase p s a -> len (a_outst a) <= 2 -> mu s (len (a_outst a)) <= 5 * total_lines p + 3.
Proof.
  intros s a PH N2. pose proof (total_ge2 p W) as G2.
  assert (CT : ctr s < total_lines p).
  { assert (LL : last_line p < total_lines p) by (unfold last_line; lia).
    assert (PL : forall k, k < total_lines p -> prev_line p k < total_lines p).
    { intros k K. unfold prev_line. destruct (N.eqb_spec k 0); lia. }
    destruct PH as [P | r P | r P | r P | r P | r k P | r P | r P | r k P | r k P | r k P].
    - rewrite (id_ctr _ _ _ P). auto.
    - rewrite (rq_ctr _ _ _ _ P). auto.
    - rewrite (ev_ctr _ _ _ _ P). auto.
    - rewrite (wt_ctr _ _ _ _ P). auto.
    - rewrite (rf_ctr _ _ _ _ P). auto.
    - rewrite (iv_ctr _ _ _ _ _ P). apply (iv_k _ _ _ _ _ P).
    - rewrite (il_ctr _ _ _ _ P). auto.
    - rewrite (fs_ctr _ _ _ _ P). auto.
    - rewrite (fl_ctr _ _ _ _ _ _ (fr_c _ _ _ _ _ P)). apply PL. apply (fl_k _ _ _ _ _ _ (fr_c _ _ _ _ _ P)).
    - rewrite (fl_ctr _ _ _ _ _ _ (fw_c _ _ _ _ _ P)). apply PL. apply (fl_k _ _ _ _ _ _ (fw_c _ _ _ _ _ P)).
    - rewrite (fl_ctr _ _ _ _ _ _ (fx_c _ _ _ _ _ P)). apply PL. apply (fl_k _ _ _ _ _ _ (fx_c _ _ _ _ _ P)). }
  assert (FLN : fline s <= total_lines p - 1).
  { unfold fline. destruct (N.eqb_spec (ctr s) (last_line p)) as [E|E]; unfold last_line in *; lia. }
  etransitivity; [apply mu_le|]. generalize dependent (len (a_outst a)). intros n N2.
  unfold core. destruct (t1 s); try (destruct (ev2 s)); try lia; destruct (fsm s); try lia;
    try (destruct (mr_val s)); try (destruct (mrv s)); try (destruct (mem2 p s)); lia.
Qed.

(** *** Runs *)
Lemma productive_app : forall t1 t2 t0, productive_cycles t0 (t1 ++ t2) =
  (productive_cycles t0 t1 + productive_cycles (t0 ++ t1) t2)%nat.
Proof.
  induction t1 as [|x t1 IH]; intros t2 t0; cbn [app productive_cycles].
  - rewrite app_nil_r. auto.
  - rewrite IH, <- app_assoc. cbn [app]. lia.
Qed.

Lemma stok_flight : forall m0 s n m rq rs tr a, stok p m0 s n m rq rs tr a ->
  (length (responses tr) < length (accepted tr))%nat -> phase p s a /\ (a_cur a <> None \/ a_pend a <> []).
Proof.
  intros m0 s n m rq rs tr a ST LT. destruct (stok_J p _ _ _ _ _ _ _ _ ST) as [JJ _].
  inversion ST as [c0 k CS PI NN A1 A2 | a0 PH TL]; subst.
  - rewrite A1 in LT. cbn in LT. lia.
  - split; auto. destruct (J_hist _ _ _ _ _ _ _ _ _ JJ) as (A0 & c & mb & Q & pd & HH & PD & _ & C).
    pose proof (hist_length p _ _ _ _ _ _ HH) as L. rewrite app_length in L. subst pd.
    destruct C as [(E & E2 & _) | (r & ex & qs & todo & out & l & E & _ & E2 & _)].
    + right. intros X. rewrite E, X in *. cbn in *. lia.
    + left. rewrite E2. discriminate.
Qed.

Lemma within_mu : forall is2 is s0 m0 m rq rs, sys_run p s0 (is ++ is2) m0 m rq rs ->
  let tr := trace_of p s0 is in
  (length (responses tr) < length (accepted tr))%nat ->
  mu (fst (run p s0 is)) (len (outstanding tr)) <= N.of_nat (productive_cycles tr (trace_of p (fst (run p s0 is)) is2)) ->
  exists ia i ib, is2 = ia ++ i :: ib /\ o_resp (output p (fst (run p s0 (is ++ ia))) i) <> None /\
    N.of_nat (productive_cycles tr (trace_of p (fst (run p s0 is)) (ia ++ [i]))) <= mu (fst (run p s0 is)) (len (outstanding tr)).
Proof.
  induction is2 as [|i is2 IH]; intros is s0 m0 m rq rs R tr LT MU.
  - cbn [trace_of run combine productive_cycles] in MU. pose proof (mu_pos (fst (run p s0 is)) (len (outstanding tr))). 
    unfold trace_of in MU. cbn in MU. lia.
  - pose proof R as RR. change (i :: is2) with ([i] ++ is2) in RR. rewrite app_assoc in RR.
    destruct (sys_app p _ _ _ _ _ _ _ RR) as (m1 & rq1 & rs1 & R1 & _).
    destruct (sys_cycle p W _ _ _ _ _ _ _ R1) as (m2 & rq2 & rs2 & a & a' & R0 & ST & LG & AC & ST' & _).
    destruct (stok_J p _ _ _ _ _ _ _ _ ST) as [_ OT]. destruct (stok_J p _ _ _ _ _ _ _ _ ST') as [_ OT'].
    destruct (stok_flight _ _ _ _ _ _ _ _ ST LT) as [PH FL].
    set (s := fst (run p s0 is)) in *. fold tr in OT, ST.
    rewrite trace_cons in MU. cbn [productive_cycles fst] in MU. rewrite OT in MU |- *.
    pose proof (acyc_outst p _ _ _ _ AC) as ON.
    assert (REC : o_resp (output p s i) = None ->
       mu (next p s i) (len (a_outst a')) + (if productive tr i then 1 else 0) <= mu s (len (a_outst a)) ->
       exists ia i0 ib, i :: is2 = ia ++ i0 :: ib /\ o_resp (output p (fst (run p s0 (is ++ ia))) i0) <> None /\
         N.of_nat (productive_cycles tr (trace_of p s (ia ++ [i0]))) <= mu s (len (a_outst a))).
    { intros NR LE. specialize (IH (is ++ [i]) s0 m0 m rq rs RR). cbv zeta in IH. rewrite run_snoc, OT' in IH. fold s in IH.
      assert (LT' : (length (responses (trace_of p s0 (is ++ [i]))) < length (accepted (trace_of p s0 (is ++ [i]))))%nat).
      { rewrite trace_snoc, responses_app, accepted_app, !app_length. fold tr s. unfold responses at 2. cbn [flat_map snd fst].
        rewrite NR. cbn [opt_list app length]. lia. }
      specialize (IH LT'). rewrite trace_snoc in IH. fold tr s in IH.
      destruct IH as (ia & j & ib & E & RS & LE2).
      { destruct (productive tr i); lia. }
      exists (i :: ia), j, ib. split; [rewrite E; auto|]. split.
      - rewrite <- app_assoc in RS. exact RS.
      - cbn [app]. rewrite trace_cons. cbn [productive_cycles fst]. destruct (productive tr i); lia. }
    destruct (ostall2 s i) eqn:S.
    + destruct (out_stall p s i S) as [OR _]. apply REC; auto.
      pose proof (stalled s a i PH LG S) as LE. rewrite <- ON in LE.
      replace (productive tr i) with false; [lia|]. symmetry. unfold productive.
      rewrite ostall2_eq in S. apply andb_prop in S. destruct S as [_ S]. destruct (i_resp_rdy i), (i_mreq_rdy i); auto; discriminate.
    + destruct (out_nostall p s i S) as [OR _]. destruct (resp2 p s) as [y|] eqn:R2.
      * exists [], i, is2. split; auto. cbn [app]. rewrite app_nil_r. fold s. rewrite OR. split; [discriminate|].
        rewrite trace_one. cbn [productive_cycles]. pose proof (mu_pos s (len (a_outst a))). destruct (productive tr _); lia.
      * apply REC; auto. destruct (advance s a i PH LG S R2 FL) as [LE LT2]. rewrite <- ON in LE, LT2.
        destruct (productive tr i) eqn:PR; [|lia]. assert (X : mu (next p s i) (len (a_outst a')) < mu s (len (a_outst a))); [|lia].
        apply LT2. unfold productive in PR. rewrite OT in PR. apply andb_prop in PR. destruct PR as [_ PR].
        destruct (a_outst a); auto.
Qed.

Definition bound : nat := N.to_nat (5 * total_lines p + 3).

Lemma drain : forall k is is2 s0 m0 m rq rs A, sys_run p s0 (is ++ is2) m0 m rq rs ->
  let tr := trace_of p s0 is in
  (A <= length (accepted tr))%nat -> (A <= length (responses tr) + k)%nat ->
  (k * bound <= productive_cycles tr (trace_of p (fst (run p s0 is)) is2))%nat ->
  (A <= length (responses (trace_of p s0 (is ++ is2))))%nat.
Proof.
  induction k as [|k IH]; intros is is2 s0 m0 m rq rs A R tr A1 A2 C.
  - rewrite trace_app, responses_app, app_length. fold tr. lia.
  - destruct (Nat.le_gt_cases A (length (responses tr))) as [LE|GT].
    { rewrite trace_app, responses_app, app_length. fold tr. lia. }
    destruct (sys_app p _ _ _ _ _ _ _ R) as (m1 & rq1 & rs1 & R1 & _).
    destruct (sys_state p W _ _ _ _ _ _ R1) as (a & ST).
    destruct (stok_J p _ _ _ _ _ _ _ _ ST) as [_ OT].
    destruct (stok_flight _ _ _ _ _ _ _ _ ST) as [PH FL]; [fold tr; lia|].
    assert (OL : (length (a_outst a) <= 2)%nat).
    { rewrite <- OT. apply (proj1 (sys_outst p W _ _ _ _ _ _ R1)). }
    pose proof (mu_bound _ _ PH ltac:(unfold len; lia)) as MB. rewrite <- OT in MB. fold tr in MB.
    destruct (within_mu is2 is s0 m0 m rq rs R) as (ia & i & ib & E & RS & LE).
    { fold tr. lia. }
    { fold tr. unfold bound in C. nia. }
    fold tr in LE. subst is2.
    replace (is ++ ia ++ i :: ib) with ((is ++ ia ++ [i]) ++ ib) in R |- * by (rewrite <- !app_assoc; auto).
    eapply IH; eauto.
    + rewrite trace_app, accepted_app, app_length. fold tr. lia.
    + rewrite app_assoc, trace_snoc, responses_app, trace_app, responses_app, !app_length. fold tr.
      unfold responses at 3. cbn [flat_map snd]. destruct (o_resp _); [|congruence]. cbn. lia.
    + replace (ia ++ i :: ib) with ((ia ++ [i]) ++ ib) in C by (rewrite <- app_assoc; auto).
      rewrite trace_app, productive_app in C. rewrite run_app. cbn [fst]. rewrite (trace_app p is (ia ++ [i])). fold tr.
      unfold bound in *. nia.
Qed.

Theorem sys_progress : forall is is2 s0 m0 m rq rs, sys_run p s0 (is ++ is2) m0 m rq rs ->
  let tr := trace_of p s0 is in
  (2 * N.to_nat (5 * total_lines p + 3) <= productive_cycles tr (trace_of p (fst (run p s0 is)) is2))%nat ->
  (length (accepted tr) <= length (responses (trace_of p s0 (is ++ is2))))%nat.
Proof.
  intros is is2 s0 m0 m rq rs R tr C. eapply (drain 2%nat); eauto.
  destruct (sys_app p _ _ _ _ _ _ _ R) as (m1 & rq1 & rs1 & R1 & _).
  pose proof (sys_inflight p W _ _ _ _ _ _ R1) as SI. cbv zeta in SI. fold tr in SI. fold tr. lia.
Qed.

Lemma latency_count : forall L n tr0 tr, answers_within L tr0 tr ->
  Forall (fun io => i_resp_rdy (fst io) && i_mreq_rdy (fst io) = true) tr ->
  (n * S L <= length tr)%nat -> (n <= productive_cycles tr0 tr)%nat.
Proof.
  intros L n. induction n as [|n IH]; intros tr0 tr AW F LE; [lia|].
  set (t2 := firstn (S L) tr). set (t3 := skipn (S L) tr).
  assert (E : tr = t2 ++ t3) by (symmetry; apply firstn_skipn).
  assert (LE' : (S L + n * S L <= length tr)%nat) by (cbn [Nat.mul] in LE; lia).
  assert (L2 : length t2 = S L) by (apply firstn_length_le; lia).
  clearbody t2 t3. subst tr. rewrite app_length in LE'.
  rewrite productive_app.
  assert (P1 : (1 <= productive_cycles tr0 t2)%nat).
  { destruct (AW [] t2 t3 eq_refl L2) as (a & io & b & E & C). subst t2. rewrite productive_app. cbn [productive_cycles].
    assert (X : productive (tr0 ++ a) (fst io) = true).
    { apply Forall_app in F. destruct F as [F _]. apply Forall_app in F. destruct F as [_ F]. inversion F; subst.
      unfold productive. rewrite H1. cbn [andb]. destruct C as [C | C]; [cbn [app] in C; rewrite C; auto|].
      rewrite C. destruct (outstanding _); auto. }
    rewrite X. lia. }
  assert (P2 : (n <= productive_cycles (tr0 ++ t2) t3)%nat).
  { apply IH.
    - intros u1 u2 u3 E LU. destruct (AW (t2 ++ u1) u2 u3) as (a & io & b & E2 & C); auto.
      + rewrite E, <- app_assoc. auto.
      + exists a, io, b. split; auto. rewrite <- !app_assoc in *. auto.
    - apply Forall_app in F. apply F.
    - lia. }
  lia.
Qed.

Theorem sys_progress_latency : forall L is is2 s0 m0 m rq rs, sys_run p s0 (is ++ is2) m0 m rq rs ->
  let tr := trace_of p s0 is in let tr2 := trace_of p (fst (run p s0 is)) is2 in
  Forall (fun i => i_resp_rdy i && i_mreq_rdy i = true) is2 -> answers_within L tr tr2 ->
  (2 * N.to_nat (5 * total_lines p + 3) * (L + 1) <= length is2)%nat ->
  (length (accepted tr) <= length (responses (trace_of p s0 (is ++ is2))))%nat.
Proof.
  intros L is is2 s0 m0 m rq rs R tr tr2 F AW LE. eapply sys_progress; eauto.
  apply (latency_count L); auto.
  - clear -F. generalize (fst (run p s0 is)). induction F as [|i is2 H F IH]; intros s; [constructor|].
    rewrite trace_cons. constructor; auto.
  - rewrite trace_length. replace (S L) with (L + 1)%nat by lia. auto.
Qed.
End P.
