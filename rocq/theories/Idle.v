(** What idle ports show does not matter (C55). *)
From Coq Require Import NArith List Bool Lia.
From Verif Require Import Bits Params Msg Units Rtl Tl ParamsProofs RtlLemmas RefineInv RefineStall RefineReq RefineProofs
  SramJunk IdleSpec.
Import ListNotations.
Open Scope N_scope.

Section I.
Variable p : params.
Hypothesis W : wf_params p.

(** Tag entries that differ at most in the tag of an invalid, clean line. *)
Record ter (e e' : N) : Prop := mkTer {
  te_v : te_val p e' = te_val p e;
  te_d : te_dty p e' = te_dty p e;
  te_t : te_val p e = true \/ te_dty p e <> 0 -> te_tag p e' = te_tag p e
}.
Lemma ter_refl : forall e, ter e e. Proof. constructor; auto. Qed.

Definition live (t : trans) : bool :=
  match t with
  | TR_INVALID | TR_CACHE_INIT | TR_CLEAN_HIT | TR_INV_WRITE | TR_FLUSH_READ | TR_FLUSH_WAIT | TR_FLUSH_WRITE => false
  | _ => true
  end.

Record ieq (s s' : st) : Prop := mkIeq {
  x_fsm : fsm s' = fsm s; x_ctr : ctr s' = ctr s; x_mrv : mrv s' = mrv s;
  x_mrm : mrv s = true -> mr_type (mrm s') = mr_type (mrm s) /\ mr_data (mrm s') = mr_data (mrm s);
  x_msn : msn s' = msn s; x_msr : msr s' = msr s; x_mst : cq_type (ms_req (msr s)) <> T_INIT;
  x_t1 : t1 s' = t1 s; x_ni : t1 s <> TR_INIT_REQ; x_wp1 : wp1 s' = wp1 s; x_utw1 : utw1 s' = utw1 s;
  x_q1 : live (t1 s) = true -> q1 s' = q1 s /\ cq_type (q1 s) <> T_INIT;
  x_qi : fsm s = F_INIT \/ t1 s = TR_CACHE_INIT -> q1 s' = q1 s;
  x_fi1 : fi1 s' = fi1 s; x_dm1 : dm1 s' = dm1 s; x_rep : rep s' = rep s;
  x_tram : forall w k, ter (tram s w k) (tram s' w k);
  x_tdout : forall w, ter (tdout s w) (tdout s' w);
  x_tsr : forall w, ter (tsr s w) (tsr s' w);
  x_hsr : wst s || ev2 s = true -> t_alloc (t1 s) = true -> hsr s' = hsr s;
  x_wst : wst s' = wst s; x_t2 : t2 s' = t2 s; x_ev2 : ev2 s' = ev2 s; x_hit2 : hit2 s' = hit2 s; x_fs2 : fs2 s' = fs2 s;
  x_q2 : live (t2 s) = true -> q2 s' = q2 s;
  x_q2f : t2 s = TR_FLUSH_READ -> fs2 s = true -> cq_addr (q2 s') = cq_addr (q2 s);
  x_wm2 : wm2 s' = wm2 s; x_dram : dram s' = dram s; x_ddout : ddout s' = ddout s; x_dsr : dsr s' = dsr s
}.

(** what the phases say *)
Definition good (s : st) (a : ast) : Prop :=
  phase p s a \/ (exists k, ph_init p s k) /\ a_outst a = [].

Lemma evict_dirty : forall s a, good s a -> is_evict1 p s = true -> te_dty p (tagq s (way_offset1 p s)) <> 0.
Proof.
  intros s a G E. pose proof (ev_tpe p s E) as T.
  destruct G as [P | [(k & P) _]].
  2:{ exfalso. pose proof (in_t1 _ _ _ P) as Q. unfold tag_proc_en in T. destruct Q as [Q | Q]; rewrite Q, andb_false_r in T; discriminate T. }
  assert (HQ : t1 s = TR_AMO_REQ -> hitq p s = hsr_in p s).
  { intros A. destruct P as [X | r X | r X | r X | r X | r k X | r X | r X | r k X | r k X | r k X].
    - pose proof (id_t1 _ _ _ X) as Q. rewrite A in Q. discriminate Q.
    - apply (rq_hitq _ _ _ _ X).
    - exfalso. unfold tag_proc_en in T. rewrite (ev_ev2 _ _ _ _ X) in T. discriminate T.
    - rewrite (wt_t1 _ _ _ _ X) in A. discriminate A.
    - rewrite (rf_t1 _ _ _ _ X) in A. discriminate A.
    - destruct (iv_t1 _ _ _ _ _ X) as [Q | Q]; destruct Q as [Q _]; rewrite Q in A; discriminate A.
    - rewrite (il_t1 _ _ _ _ X) in A. discriminate A.
    - rewrite (fs_t1 _ _ _ _ X) in A. discriminate A.
    - rewrite (fl_t1 _ _ _ _ _ _ (fr_c _ _ _ _ _ X)) in A. discriminate A.
    - rewrite (fl_t1 _ _ _ _ _ _ (fw_c _ _ _ _ _ X)) in A. discriminate A.
    - rewrite (fl_t1 _ _ _ _ _ _ (fx_c _ _ _ _ _ X)) in A. discriminate A. }
  unfold is_evict1 in E. unfold way_offset1.
  assert (D : forall w, pu_ld p s w = true -> te_dty p (tagq s w) <> 0).
  { intros w. unfold pu_ld, line_dirty. rewrite T. cbn [andb]. destruct (N.eqb_spec (te_dty p (tagq s w)) 0); auto. discriminate. }
  unfold is_dty1, is_rwi1, is_amo1 in E.
  destruct (t1 s) eqn:T1; cbn [trans_eqb orb] in E; try discriminate E.
  - destruct (pu_inval p s), (hit1 p s); cbn [negb andb] in E; try discriminate E. cbn [negb]. apply D; auto.
  - destruct (pu_inval p s), (hit1 p s); cbn [negb andb] in E; try discriminate E. cbn [negb]. apply D; auto.
  - exfalso. unfold tag_proc_en in T. rewrite T1, andb_false_r in T. discriminate T.
  - rewrite HQ by auto. cbn [hsr_in snd]. apply D. apply andb_prop in E. apply E.
Qed.

Lemma flush_clean : forall s a i, good s a -> trans0 p s i = TR_FLUSH_WRITE \/ trans0 p s i = TR_REPLAY_FLUSH ->
  te_dty p (pu_ent s (upd_tag_way0 p s i)) = 0.
Proof.
  intros s a i G T.
  assert (Z : tag_proc_en s = false -> te_dty p (pu_ent s (upd_tag_way0 p s i)) = 0).
  { intros Q. unfold pu_ent, pu_entry. rewrite Q. apply te_dty_0; auto. }
  destruct G as [P | [(k & P) _]].
  2:{ apply Z. unfold tag_proc_en. destruct (in_t1 _ _ _ P) as [Q | Q]; rewrite Q; apply andb_false_r. }
  assert (NR : fsm s = F_READY -> False).
  { intros F. unfold trans0 in T. rewrite F in T.
    repeat match type of T with context [if ?b then _ else _] => destruct b end; destruct T; discriminate. }
  destruct P as [X | r X | r X | r X | r X | r k X | r X | r X | r k X | r k X | r k X].
  - destruct (NR (id_fsm _ _ _ X)).
  - destruct (NR (rq_fsm _ _ _ _ X)).
  - destruct (NR (ev_fsm _ _ _ _ X)).
  - destruct (NR (wt_fsm _ _ _ _ X)).
  - apply Z. unfold tag_proc_en. rewrite (rf_t1 _ _ _ _ X). apply andb_false_r.
  - apply Z. unfold tag_proc_en. destruct (iv_t1 _ _ _ _ _ X) as [Q | Q]; destruct Q as [Q _]; rewrite Q; apply andb_false_r.
  - apply Z. unfold tag_proc_en. rewrite (il_t1 _ _ _ _ X). apply andb_false_r.
  - apply Z. unfold tag_proc_en. rewrite (fs_t1 _ _ _ _ X). apply andb_false_r.
  - pose proof (fr_c _ _ _ _ _ X) as C. pose proof (fl_t1 _ _ _ _ _ _ C) as T1.
    pose proof (fr_fsm _ _ _ _ _ X) as F.
    destruct (N.eqb_spec k 0) as [K | K].
    + assert (NF : no_flush_needed1 p s = true).
      { unfold trans0 in T. rewrite F in T. unfold prev_flush_done, mr_ack, flush_refill_bypass in T.
        rewrite (fr_mrv _ _ _ _ _ X), T1 in T. cbn [andb orb trans_eqb] in T. rewrite !orb_false_r in T.
        destruct (no_flush_needed1 p s); auto.
        repeat match type of T with context [if ?b then _ else _] => destruct b end; destruct T; discriminate. }
      assert (U : upd_tag_way0 p s i = utw1 s).
      { rewrite (fr_utw _ _ _ _ _ X). unfold upd_tag_way0, is_ctr_way0, ctr_way0, upd_way_idx0.
        rewrite (fl_ctr _ _ _ _ _ _ C), K. unfold lway. change (prev_line p 0) with (last_line p).
        assert (E : trunc (bw_lines p) (last_line p + 1) = 0).
        { unfold last_line. pose proof (total_ge2 p W). replace (total_lines p - 1 + 1) with (total_lines p) by lia.
          rewrite (total_pow p W). unfold trunc. rewrite N.land_ones. apply N.mod_same. apply N.pow_nonzero. discriminate. }
        destruct T as [T | T]; rewrite T; cbn [trans_eqb orb]; rewrite E; auto. }
      rewrite U. unfold no_flush_needed1, pu_ld, line_dirty in NF. unfold pu_ent, pu_entry.
      destruct (tag_proc_en s); [|apply te_dty_0; auto].
      apply andb_prop in NF. destruct NF as [_ NF]. cbn [andb] in NF. rewrite negb_involutive in NF. apply N.eqb_eq. auto.
    + exfalso. unfold trans0 in T. rewrite F in T.
      repeat match type of T with context [if ?b then _ else _] => destruct b end; destruct T; discriminate.
  - apply Z. unfold tag_proc_en. rewrite (fl_t1 _ _ _ _ _ _ (fw_c _ _ _ _ _ X)). apply andb_false_r.
  - apply Z. unfold tag_proc_en. rewrite (fl_t1 _ _ _ _ _ _ (fx_c _ _ _ _ _ X)). apply andb_false_r.
Qed.

Section One.
Variables (s s' : st) (i i' : inp) (a : ast).
Hypothesis C : ieq s s'.
Hypothesis E : idle_eq i i'.
Hypothesis G : good s a.
Hypothesis L : legal p s (a_outst a) i.

Lemma y_t1 : t1 s' = t1 s. Proof. apply (x_t1 _ _ C). Qed.
Lemma y_tagq : forall w, ter (tagq s w) (tagq s' w).
Proof. intros. unfold tagq. rewrite (x_wst _ _ C). destruct (wst s); [apply (x_tsr _ _ C) | apply (x_tdout _ _ C)]. Qed.
Lemma y_tpe : tag_proc_en s' = tag_proc_en s.
Proof. unfold tag_proc_en. rewrite (x_ev2 _ _ C), y_t1. auto. Qed.
Lemma y_ent : forall w, ter (pu_ent s w) (pu_ent s' w).
Proof. intros. unfold pu_ent, pu_entry. rewrite y_tpe. destruct (tag_proc_en s); [apply y_tagq | apply ter_refl]. Qed.
Lemma y_ld : forall w, pu_ld p s' w = pu_ld p s w.
Proof. intros. unfold pu_ld, line_dirty. rewrite y_tpe, (te_d _ _ (y_tagq w)). auto. Qed.
Lemma y_wd : forall w, off1 p s' = off1 p s -> cq_len (q1 s') = cq_len (q1 s) -> pu_wd p s' w = pu_wd p s w.
Proof. intros w H1 H2. unfold pu_wd, word_dirty. rewrite (te_d _ _ (y_tagq w)), H1, H2. auto. Qed.

Lemma y_way_ext : forall tg f g acc w, (forall x, ter (f x) (g x)) -> pu_way p tg g acc w = pu_way p tg f acc w.
Proof.
  intros tg f g [[h ih] w0] w H. unfold pu_way, line_dirty. destruct (H w) as [V D T]. rewrite V, D. cbn [andb].
  destruct (te_val p (f w)) eqn:EV; cbn [andb negb].
  - rewrite T by auto. rewrite andb_false_r. auto.
  - rewrite andb_true_r. destruct (N.eqb_spec (te_dty p (f w)) 0) as [Z | Z]; cbn [andb negb]; auto. rewrite T by auto. auto.
Qed.
Lemma y_fold : forall tg f g l acc, (forall x, ter (f x) (g x)) -> fold_left (pu_way p tg g) l acc = fold_left (pu_way p tg f) l acc.
Proof. intros tg f g l. induction l; intros acc H; cbn [fold_left]; auto. rewrite (y_way_ext tg f g) by auto. auto. Qed.

Lemma tpe_live : tag_proc_en s = true -> t1 s <> TR_FLUSH_READ -> live (t1 s) = true.
Proof. unfold tag_proc_en. destruct (t1 s); cbn; rewrite ?andb_false_r; auto; try discriminate; tauto. Qed.
Lemma y_q1 : live (t1 s) = true -> q1 s' = q1 s.
Proof. apply (x_q1 _ _ C). Qed.

Lemma y_pu : t1 s <> TR_FLUSH_READ -> pu p s' = pu p s.
Proof.
  intros F. unfold pu, pu_compare. rewrite y_tpe. unfold is_init1. rewrite y_t1.
  destruct (negb (trans_eqb (t1 s) TR_INIT_REQ) && tag_proc_en s) eqn:Q; auto. apply andb_prop in Q.
  rewrite y_q1 by (apply tpe_live; tauto). apply y_fold. apply y_tagq.
Qed.
Lemma rwa_live : is_rwi1 s || is_amo1 s = true -> live (t1 s) = true /\ t1 s <> TR_FLUSH_READ.
Proof. unfold is_rwi1, is_amo1. destruct (t1 s); cbn; intro H; auto; try discriminate H; split; auto; discriminate. Qed.
Lemma y_rwi : is_rwi1 s' = is_rwi1 s. Proof. unfold is_rwi1. rewrite y_t1. auto. Qed.
Lemma y_amo : is_amo1 s' = is_amo1 s. Proof. unfold is_amo1. rewrite y_t1. auto. Qed.
Lemma y_hit1 : hit1 p s' = hit1 p s.
Proof.
  unfold hit1. rewrite y_rwi, y_amo. destruct (is_rwi1 s || is_amo1 s) eqn:Q; auto.
  destruct (rwa_live Q). unfold pu_hit. rewrite y_pu; auto.
Qed.
Lemma y_idx1 : live (t1 s) = true -> idx1 p s' = idx1 p s /\ off1 p s' = off1 p s.
Proof. intros H. unfold idx1, off1. rewrite y_q1; auto. Qed.
Lemma y_reprd : live (t1 s) = true -> rep_rd p s' = rep_rd p s.
Proof. intros H. unfold rep_rd. destruct (y_idx1 H) as [-> _]. rewrite (x_rep _ _ C). auto. Qed.

Lemma y_dty : is_rwi1 s || is_amo1 s = true -> is_dty1 p s' = is_dty1 p s.
Proof.
  intros Q. destruct (rwa_live Q) as [V F]. unfold is_dty1. rewrite y_rwi, y_amo, y_hit1. unfold pu_hit_way. rewrite y_pu, y_reprd, !y_ld by auto.
  destruct (y_idx1 V). rewrite y_wd by (auto; rewrite y_q1; auto). auto.
Qed.
Lemma y_ev1 : is_evict1 p s' = is_evict1 p s.
Proof.
  unfold is_evict1. rewrite y_rwi, y_amo. destruct (is_rwi1 s || is_amo1 s) eqn:Q.
  - rewrite y_dty, y_hit1 by auto. unfold pu_inval. rewrite y_pu by (apply rwa_live; auto). auto.
  - apply orb_false_elim in Q. destruct Q as [-> ->]. auto.
Qed.
Lemma y_whc : write_hit_clean p s' = write_hit_clean p s.
Proof.
  unfold write_hit_clean. rewrite y_rwi. destruct (is_rwi1 s) eqn:Q; auto.
  assert (Q' : is_rwi1 s || is_amo1 s = true) by (rewrite Q; auto).
  rewrite y_dty, y_hit1, y_t1 by auto. unfold pu_inval. rewrite y_pu by (apply rwa_live; auto). auto.
Qed.
Lemma y_rep : repreq_en1 p s' = repreq_en1 p s /\ (repreq_en1 p s = true -> rep_wr p s' = rep_wr p s /\ idx1 p s' = idx1 p s).
Proof.
  unfold rep_wr, repreq_en1, repreq_is_hit1, repreq_hit_ptr1, is_init1. rewrite y_ev1, y_hit1, y_rwi, y_amo, y_t1.
  destruct (is_rwi1 s || is_amo1 s) eqn:Q.
  - destruct (rwa_live Q) as [V F]. unfold pu_inval, pu_hit_way. rewrite y_pu, y_reprd by auto. split; auto. split; auto. apply y_idx1; auto.
  - apply orb_false_elim in Q. destruct Q as [-> ->]. split; auto. discriminate.
Qed.
Lemma y_hitq : t_alloc (t1 s) = true -> hitq p s' = hitq p s.
Proof.
  intros T. unfold hitq, hsr_en. rewrite (x_wst _ _ C), (x_ev2 _ _ C).
  assert (F : t1 s <> TR_FLUSH_READ) by (intro F; rewrite F in T; discriminate T).
  destruct (negb (wst s) && negb (ev2 s)) eqn:Q.
  - unfold hsr_in, pu_hit, pu_inval, pu_hit_way. rewrite y_pu by auto. auto.
  - apply (x_hsr _ _ C); auto. destruct (wst s), (ev2 s); auto; discriminate Q.
Qed.
Lemma y_way : way_offset1 p s' = way_offset1 p s.
Proof.
  unfold way_offset1. rewrite y_hit1, y_t1, (x_wp1 _ _ C), (x_utw1 _ _ C).
  destruct (t1 s) eqn:Q; auto;
  try (unfold pu_inval, pu_hit_way; rewrite y_pu by (rewrite Q; discriminate); auto; rewrite y_reprd by (rewrite Q; auto); reflexivity).
  rewrite y_hitq by (rewrite Q; auto). auto.
Qed.
Lemma y_hfs : has_flush_sent1 p s' = has_flush_sent1 p s.
Proof. unfold has_flush_sent1. rewrite y_t1, (x_utw1 _ _ C), y_ld. auto. Qed.
Lemma y_nfn : no_flush_needed1 p s' = no_flush_needed1 p s.
Proof. unfold no_flush_needed1. rewrite y_t1, (x_utw1 _ _ C), y_ld. auto. Qed.
Lemma y_cs1 : cs1 p s' = cs1 p s.
Proof. unfold cs1. rewrite y_t1, y_ev1, y_hit1, y_hfs. auto. Qed.
Lemma y_wm : write_mask1 p s' = write_mask1 p s.
Proof. unfold write_mask1. rewrite y_way. apply (te_d _ _ (y_ent _)). Qed.

Lemma y_evidx : live (t1 s) = true \/ flush_idx_sel1 s = true -> ev_idx1 p s' = ev_idx1 p s.
Proof.
  intros H. unfold ev_idx1, flush_idx_sel1 in *. rewrite y_t1, (x_fi1 _ _ C).
  destruct (trans_eqb (t1 s) TR_FLUSH_READ || trans_eqb (t1 s) TR_CACHE_INIT); auto.
  destruct H as [H | H]; [|discriminate H]. apply y_idx1; auto.
Qed.
Lemma evmux_dirty : cs1_evmux p s = true -> live (t1 s) = true \/ has_flush_sent1 p s = true -> te_dty p (tagq s (way_offset1 p s)) <> 0.
Proof.
  intros H V. destruct (is_evict1 p s) eqn:EV; [eapply evict_dirty; eauto|].
  unfold cs1_evmux, cs1 in H. rewrite EV in H.
  destruct (t1 s) eqn:T; cbn in H; try discriminate H; try (destruct (hit1 p s); discriminate H); destruct V as [V | V]; try discriminate V.
  - unfold has_flush_sent1 in V. rewrite T in V. discriminate V.
  - unfold way_offset1. rewrite T. unfold has_flush_sent1, pu_ld, line_dirty in V. apply andb_prop in V. destruct V as [_ V].
    apply andb_prop in V. destruct V as [_ V]. destruct (N.eqb_spec (te_dty p (tagq s (utw1 s))) 0); auto. discriminate V.
Qed.
Lemma y_addr : live (t1 s) = true \/ has_flush_sent1 p s = true -> addr1_2 p s' = addr1_2 p s.
Proof.
  intros V. unfold addr1_2. unfold cs1_evmux at 1. rewrite y_cs1. change (snd (fst (cs1 p s))) with (cs1_evmux p s).
  destruct (cs1_evmux p s) eqn:Q.
  - unfold evict_addr1. rewrite y_way, (te_t _ _ (y_tagq (way_offset1 p s))) by (right; apply evmux_dirty; auto). f_equal.
    apply y_evidx. destruct V as [V | V]; auto. right. unfold has_flush_sent1 in V. unfold flush_idx_sel1. destruct (trans_eqb (t1 s) TR_FLUSH_READ); auto; discriminate V.
  - destruct V as [V | V]; [rewrite y_q1; auto|]. exfalso. unfold cs1_evmux, cs1 in Q.
    assert (T : t1 s = TR_FLUSH_READ) by (unfold has_flush_sent1 in V; destruct (t1 s); auto; discriminate V).
    rewrite T in Q. destruct (is_evict1 p s); discriminate Q.
Qed.
Lemma y_q12 : live (t1 s) = true -> q1_2 p s' = q1_2 p s.
Proof. intros V. unfold q1_2. rewrite y_addr, y_q1; auto. Qed.

Lemma y_drow : cs1_val p s = true -> drow1 p s' = drow1 p s /\ (cs1_wr p s = true -> cq_data (q1 s') = cq_data (q1 s) /\ dwben1 p s' = dwben1 p s).
Proof.
  intros H. unfold drow1. rewrite y_way.
  destruct (live (t1 s)) eqn:V.
  - rewrite y_addr by auto. rewrite y_q1 by auto. unfold dwben1, cs1_wben, off1. rewrite y_cs1, (x_dm1 _ _ C), y_q1 by auto. auto.
  - assert (T : t1 s = TR_CACHE_INIT \/ t1 s = TR_FLUSH_READ).
    { unfold cs1_val, cs1 in H. destruct (t1 s) eqn:Q; auto; try discriminate V; try discriminate H;
      unfold is_evict1, is_rwi1, is_amo1 in H; rewrite Q in H; discriminate H. }
    destruct T as [T | T].
    + rewrite (x_qi _ _ C) by auto. unfold dwben1, cs1_wben, off1. rewrite y_cs1, (x_dm1 _ _ C), (x_qi _ _ C) by auto. split; auto.
      unfold addr1_2, cs1_evmux, cs1. rewrite y_t1, T. cbn [fst snd]. unfold evict_addr1. rewrite y_evidx by (right; unfold flush_idx_sel1; rewrite T; auto).
      f_equal. apply a_idx_tag.
    + split.
      * rewrite y_addr; auto. right. unfold cs1_val, cs1 in H. rewrite T in H.
        unfold is_evict1, is_rwi1, is_amo1 in H. rewrite T in H. exact H.
      * unfold cs1_wr, cs1. rewrite T. unfold is_evict1, is_rwi1, is_amo1. rewrite T. discriminate.
Qed.

Lemma y_alloc : cs1_alloc p s = true -> mshr_alloc_in p s' = mshr_alloc_in p s /\ cq_type (q1 s) <> T_INIT.
Proof.
  intros H.
  assert (T : t_alloc (t1 s) = true /\ live (t1 s) = true).
  { unfold cs1_alloc, cs1 in H. pose proof (x_ni _ _ C) as NI. destruct (t1 s) eqn:Q; auto; try discriminate H;
    unfold is_evict1, is_rwi1, is_amo1 in H; rewrite Q in H; try discriminate H; tauto. }
  destruct T as [T V]. split; [|apply (x_q1 _ _ C); auto].
  unfold mshr_alloc_in. rewrite y_way, y_ev1, y_wm, y_hitq, y_q1; auto.
Qed.

(** *** M2 *)
Lemma y_cs2 : cs2 s' i' = cs2 s i.
Proof. unfold cs2. rewrite (x_t2 _ _ C), (x_fs2 _ _ C), (x_ev2 _ _ C), (x_hit2 _ _ C), (ie_rdy _ _ E), (ie_mrdy _ _ E). auto. Qed.
Lemma y_os2 : ostall2 s' i' = ostall2 s i.
Proof. unfold ostall2. rewrite y_cs2. auto. Qed.
Lemma y_stall : stall01 p s' i' = stall01 p s i.
Proof. unfold stall01, ostall1. rewrite y_cs1, y_os2. auto. Qed.
Lemma y_dataq : dataq s' = dataq s.
Proof. unfold dataq. rewrite (x_wst _ _ C), (x_dsr _ _ C), (x_ddout _ _ C). auto. Qed.

Lemma y_out : drop_out (output p s' i') = drop_out (output p s i).
Proof.
  unfold drop_out, output. cbn [o_req_rdy o_resp o_mreq]. f_equal.
  - unfold req_rdy, mshr_full, mshr_empty, alloc_en, cs1_alloc. rewrite (x_fsm _ _ C), (x_msn _ _ C), y_whc, y_stall, y_cs1. auto.
  - unfold resp_en at 1. rewrite y_cs2. change (snd (cs2 s i)) with (resp_en s i). destruct (resp_en s i) eqn:R; auto. f_equal.
    assert (V : live (t2 s) = true).
    { unfold resp_en, cs2 in R. destruct (t2 s); auto; try discriminate R. destruct (negb (i_mreq_rdy i) || negb (i_resp_rdy i)); discriminate R. }
    unfold resp_out, rdmux2, off2, is_amo2, cs2_dsize, cs2_rdmux. rewrite y_cs2, (x_q2 _ _ C V), (x_hit2 _ _ C), (x_t2 _ _ C), (x_ev2 _ _ C), y_dataq. auto.
  - unfold memreq_en at 1. rewrite y_cs2. change (snd (fst (cs2 s i))) with (memreq_en s i). destruct (memreq_en s i) eqn:R; auto. cbn [option_map]. f_equal.
    destruct (live (t2 s)) eqn:V.
    + unfold memreq_out, memreq_type, rdmux2, off2, is_amo2, cs2_mtype, cs2_rdmux. rewrite y_cs2, (x_q2 _ _ C V), (x_t2 _ _ C), (x_ev2 _ _ C), (x_wm2 _ _ C), y_dataq. auto.
    + assert (T : t2 s = TR_FLUSH_READ /\ fs2 s = true /\ negb (i_mreq_rdy i) || negb (i_resp_rdy i) = false).
      { unfold memreq_en, cs2 in R. destruct (t2 s); auto; try discriminate R; try discriminate V.
        destruct (negb (i_mreq_rdy i) || negb (i_resp_rdy i)); [discriminate R|]. auto. }
      destruct T as (T & FS & B). unfold drop_wopq, memreq_out, memreq_type, rdmux2, off2, is_amo2, cs2_mtype, cs2_rdmux.
      rewrite y_cs2, (x_t2 _ _ C), y_dataq, (x_wm2 _ _ C). rewrite (x_q2f _ _ C T FS).
      unfold cs2. rewrite T, B, FS. cbn. auto.
Qed.

(** *** M0 *)
Lemma y_mux : mux_sel0 s' = mux_sel0 s.
Proof. unfold mux_sel0. rewrite (x_fsm _ _ C), (x_mrv _ _ C). auto. Qed.
Lemma y_rm : mux_sel0 s = true \/ i_req_en i = true -> req_mux0 s' i' = req_mux0 s i.
Proof.
  intros H. unfold req_mux0. rewrite y_mux, (x_msr _ _ C). destruct (mux_sel0 s); auto.
  destruct H as [H | H]; [discriminate H|]. apply (ie_req _ _ E); auto.
Qed.
Lemma y_mt : mshr_type s' = mshr_type s. Proof. unfold mshr_type. rewrite (x_msr _ _ C). auto. Qed.
Lemma y_me : mshr_empty s' = mshr_empty s. Proof. unfold mshr_empty. rewrite (x_msn _ _ C). auto. Qed.
Lemma y_mrv : mr_val s' = mr_val s /\ mr_ack s' = mr_ack s.
Proof.
  unfold mr_val, mr_ack. rewrite (x_mrv _ _ C). destruct (mrv s) eqn:Q; auto. destruct (x_mrm _ _ C Q) as [-> _]. auto.
Qed.
Lemma y_pfd : prev_flush_done p s' = prev_flush_done p s.
Proof. unfold prev_flush_done, flush_refill_bypass. rewrite y_nfn, y_t1. destruct y_mrv as [_ ->]. auto. Qed.
Lemma y_trans0 : trans0 p s' i' = trans0 p s i.
Proof.
  unfold trans0. rewrite (x_fsm _ _ C), y_whc, y_me, y_mt, y_pfd, y_hfs, (ie_en _ _ E). destruct y_mrv as [-> ->].
  destruct (i_req_en i) eqn:Q; [|rewrite andb_false_r; auto]. unfold req_type0. rewrite y_rm; auto.
Qed.
Lemma y_fsmn : fsm_next p s' i' = fsm_next p s i.
Proof.
  unfold fsm_next. rewrite (x_fsm _ _ C), (x_ctr _ _ C), y_me, y_mt, y_pfd, y_hfs, (ie_en _ _ E). destruct y_mrv as [-> ->].
  destruct (i_req_en i) eqn:Q; [|rewrite andb_false_r; auto]. unfold req_type0. rewrite y_rm; auto.
Qed.
Lemma live0 : live (trans0 p s i) = true -> mux_sel0 s = true \/ i_req_en i = true.
Proof.
  unfold mux_sel0. intros H. destruct (i_req_en i) eqn:Q; auto. left.
  unfold trans0 in H. rewrite Q, andb_false_r in H. unfold mr_val in H.
  destruct (fsm s); cbn [fsm_eqb orb]; auto; try discriminate H;
  destruct (write_hit_clean p s); try discriminate H.
  - destruct (mrv s); auto; try discriminate H.
  - destruct (has_flush_sent1 p s); discriminate H.
  - destruct (mr_ack s); discriminate H.
Qed.
Lemma notinit0 : trans0 p s i <> TR_INIT_REQ.
Proof.
  assert (X : i_req_en i = true -> req_type0 s i <> T_INIT).
  { intros Q. unfold req_type0, req_mux0. destruct (mux_sel0 s); [apply (x_mst _ _ C)|].
    destruct (lg_req _ _ _ _ L Q) as [_ T]. unfold wf_type in T.
    intros D. rewrite D in T. destruct T as [T | [T | [T | [T | T]]]]; discriminate T. }
  unfold trans0. intros H. destruct (i_req_en i) eqn:Q.
  - assert (X1 : req_type0 s i =? T_INIT = false) by (apply N.eqb_neq; auto). rewrite X1 in H.
    destruct (fsm s); try discriminate H;
    repeat match type of H with context [if ?b then _ else _] => destruct b end; discriminate H.
  - rewrite andb_false_r in H. destruct (fsm s); try discriminate H;
    repeat match type of H with context [if ?b then _ else _] => destruct b end; discriminate H.
Qed.
Lemma y_cs0 : cs0 p s' i' = cs0 p s i.
Proof. unfold cs0. rewrite y_trans0. auto. Qed.
Lemma y_upd : upd_way_idx0 p s' i' = upd_way_idx0 p s i.
Proof. unfold upd_way_idx0. rewrite y_trans0, (x_ctr _ _ C). auto. Qed.
Lemma y_utw : upd_tag_way0 p s' i' = upd_tag_way0 p s i.
Proof. unfold upd_tag_way0, is_ctr_way0, ctr_way0. rewrite y_trans0, y_upd. auto. Qed.
Lemma y_init : init_idx0 p s' i' = init_idx0 p s i.
Proof. unfold init_idx0. rewrite y_upd. auto. Qed.
Lemma clean0 : trans0 p s i = TR_CLEAN_HIT -> t1 s = TR_WRITE_REQ.
Proof.
  intros H. unfold trans0 in H. destruct (write_hit_clean p s) eqn:Q.
  - unfold write_hit_clean in Q. apply andb_prop in Q. destruct Q as [_ Q]. destruct (t1 s); auto; discriminate Q.
  - exfalso. destruct (fsm s); try discriminate H;
    repeat match type of H with context [if ?b then _ else _] => destruct b end; discriminate H.
Qed.
Lemma y_val0 : tag_val0 p s' i' = tag_val0 p s i.
Proof.
  unfold tag_val0, is_ctr_way0, ctr_way0. rewrite y_trans0, y_upd, (x_msr _ _ C).
  destruct (trans0 p s i) eqn:Q; auto.
  - unfold pu_hit_way. rewrite y_pu; auto. rewrite (clean0 Q). discriminate.
  - destruct (notinit0 Q).
Qed.
Lemma y_addr0 : live (trans0 p s i) = true \/ trans0 p s i = TR_CLEAN_HIT -> addr0 p s' i' = addr0 p s i /\ len0 p s' i' = len0 p s i.
Proof.
  intros H. unfold addr0, len0. unfold cs0_admux at 1 3. rewrite y_cs0.
  change (snd (fst (fst (fst (fst (fst (cs0 p s i))))))) with (cs0_admux p s i).
  destruct H as [H | H].
  - rewrite (y_rm (live0 H)). assert (A : cs0_admux p s i = false) by (unfold cs0_admux, cs0; destruct (trans0 p s i); auto; discriminate H).
    rewrite A. auto.
  - unfold cs0_admux, cs0. rewrite H. cbn [fst snd]. rewrite y_q1; auto. rewrite (clean0 H). auto.
Qed.
Lemma y_q0 : live (trans0 p s i) = true -> q0 p s' i' = q0 p s i /\ cq_type (q0 p s i) <> T_INIT.
Proof.
  intros H. split.
  - unfold q0. destruct (y_addr0 (or_introl H)) as [-> ->]. rewrite (y_rm (live0 H)). f_equal.
    unfold data0. unfold cs0_wdmux at 1. rewrite y_cs0. change (snd (fst (fst (fst (fst (fst (fst (cs0 p s i)))))))) with (cs0_wdmux p s i).
    destruct (cs0_wdmux p s i) eqn:Q.
    + assert (M : mrv s = true).
      { assert (T : trans0 p s i = TR_REFILL \/ trans0 p s i = TR_REPLAY_AMO)
          by (unfold cs0_wdmux, cs0 in Q; destruct (trans0 p s i); auto; discriminate Q).
        destruct (mrv s) eqn:M; auto. exfalso. unfold trans0, mr_val in T. rewrite M in T. cbn [andb] in T.
        destruct (fsm s); repeat match type of T with context [if ?b then _ else _] => destruct b end; destruct T; discriminate. }
      apply (x_mrm _ _ C M).
    + unfold is_amo0. rewrite y_trans0, (y_rm (live0 H)). auto.
  - cbn [q0 cq_type]. intro D. destruct (live0 H) as [M | Q].
    + unfold req_mux0 in D. rewrite M in D. apply (x_mst _ _ C). auto.
    + unfold req_mux0 in D. destruct (mux_sel0 s); [apply (x_mst _ _ C); auto|].
      destruct (lg_req _ _ _ _ L Q) as [_ T]. unfold wf_type in T. rewrite D in T. destruct T as [T | [T | [T | [T | T]]]]; discriminate T.
Qed.
Lemma y_idx0 : forall w, tag_val0 p s i w = true -> tag_idx0 p s' i' = tag_idx0 p s i.
Proof.
  intros w H. unfold tag_idx0. unfold cs0_idxsel at 1. rewrite y_cs0, y_init. change (snd (fst (fst (cs0 p s i)))) with (cs0_idxsel p s i).
  destruct (cs0_idxsel p s i) eqn:Q; auto. f_equal. apply y_addr0.
  unfold tag_val0, is_ctr_way0, cs0_idxsel, cs0 in *. destruct (trans0 p s i); auto; try discriminate H; try discriminate Q.
Qed.
Lemma y_wr0 : cs0_wr p s' i' = cs0_wr p s i /\ cs0_wben p s' i' = cs0_wben p s i.
Proof. unfold cs0_wr, cs0_wben. rewrite y_cs0. auto. Qed.

Lemma ter_all : forall o o' v d t t', (v = true \/ trunc (dtyw p) d <> 0 -> trunc (tagw p) t' = trunc (tagw p) t) ->
  ter (mwrite o (mk_te p v d t) (ones_te p)) (mwrite o' (mk_te p v d t') (ones_te p)).
Proof.
  intros o o' v d t t' H. constructor; rewrite ?te_val_all, ?te_dty_all, ?te_tag_all; auto.
Qed.

Lemma y_write : forall w, tag_val0 p s i w = true -> cs0_wr p s i = true -> forall e e', ter e e' ->
  ter (mwrite e (tag_wdata0 p s i) (cs0_wben p s i)) (mwrite e' (tag_wdata0 p s' i') (cs0_wben p s i)).
Proof.
  intros w V WR e e' T.
  assert (AD : live (trans0 p s i) = true -> addr0 p s' i' = addr0 p s i /\ len0 p s' i' = len0 p s i) by (intro; apply y_addr0; auto).
  unfold tag_wdata0, tag_tag0, new_entry0, upd_way_mux0, cs0_tagsel, cs0_cmd, cs0_wben. rewrite y_cs0, (x_msr _ _ C).
  unfold cs0_wr in WR. unfold cs0 in *. destruct (trans0 p s i) eqn:Q; cbn [fst snd] in *; try discriminate WR; cbn [update_tag fst snd];
    fold (ones_te p); unfold wben_all; fold (ones_te p).
  - destruct (AD eq_refl) as [A1 A2]. rewrite ?A1, ?A2. apply ter_all. auto.
  - destruct (AD eq_refl) as [A1 A2]. rewrite ?A1, ?A2. apply ter_all. auto.
  - destruct (y_addr0 (or_intror Q)) as [-> ->].
    assert (F : t1 s <> TR_FLUSH_READ) by (rewrite (clean0 Q); discriminate).
    unfold pu_hit_way. rewrite y_pu by auto. rewrite (te_v _ _ (y_ent _)), (te_d _ _ (y_ent _)). apply ter_all. auto.
  - destruct (notinit0 Q).
  - apply ter_all. intros [H | H]; [discriminate H|]. exfalso. apply H. apply N.land_0_l.
  - destruct (AD eq_refl) as [A1 A2]. rewrite ?A1, ?A2. apply ter_all. auto.
  - unfold wben_val. rewrite !mwrite_val_any by auto. destruct (te_inv p e) as (A1 & A2 & A3), (te_inv p e') as (B1 & B2 & B3).
    destruct T as [T1 T2 T3]. constructor; rewrite ?A1, ?A2, ?A3, ?B1, ?B2, ?B3; auto. intros [H | H]; [discriminate H | auto].
  - unfold wben_val. rewrite !mwrite_val_any by auto. destruct (te_inv p e) as (A1 & A2 & A3), (te_inv p e') as (B1 & B2 & B3).
    destruct T as [T1 T2 T3]. constructor; rewrite ?A1, ?A2, ?A3, ?B1, ?B2, ?B3; auto. intros [H | H]; [discriminate H | auto].
  - rewrite y_utw, (te_d _ _ (y_ent _)), (flush_clean s a i G) by auto. unfold wben_dty. rewrite !mwrite_dty_any by auto.
    destruct (te_clean p e) as (A1 & A2 & A3), (te_clean p e') as (B1 & B2 & B3).
    destruct T as [T1 T2 T3]. constructor; rewrite ?A1, ?A2, ?A3, ?B1, ?B2, ?B3; auto. intros [H | H]; [auto | destruct (H eq_refl)].
  - rewrite y_utw, (te_d _ _ (y_ent _)), (flush_clean s a i G) by auto. unfold wben_dty. rewrite !mwrite_dty_any by auto.
    destruct (te_clean p e) as (A1 & A2 & A3), (te_clean p e') as (B1 & B2 & B3).
    destruct T as [T1 T2 T3]. constructor; rewrite ?A1, ?A2, ?A3, ?B1, ?B2, ?B3; auto. intros [H | H]; [auto | destruct (H eq_refl)].
Qed.

Lemma y_next : ieq (next p s i) (next p s' i').
Proof.
  assert (RE0 : reg_en0 p s' i' = reg_en0 p s i) by (unfold reg_en0; rewrite y_stall; auto).
  assert (C0 : is_cinit0 p s' i' = is_cinit0 p s i) by (unfold is_cinit0; rewrite y_trans0; auto).
  assert (RE1 : reg_en1 p s' i' = reg_en1 p s i) by (unfold reg_en1; rewrite y_stall, y_ev1, C0; auto).
  assert (CE1 : creg_en1 p s' i' = creg_en1 p s i) by (unfold creg_en1; rewrite RE1, C0; auto).
  assert (RE2 : reg_en2 s' i' = reg_en2 s i) by (unfold reg_en2, is_cinit1; rewrite y_os2, y_t1; auto).
  assert (CE2 : creg_en2 s' i' = creg_en2 s i) by (unfold creg_en2, is_cinit1; rewrite RE2, y_t1; auto).
  assert (AE : alloc_en p s' i' = alloc_en p s i) by (unfold alloc_en, cs1_alloc; rewrite y_stall, y_cs1; auto).
  assert (DE : dealloc_en p s' i' = dealloc_en p s i) by (unfold dealloc_en, cs0_dealloc; rewrite y_stall, y_cs0; auto).
  assert (CT : ctr_en p s' i' = ctr_en p s i) by (unfold ctr_en; rewrite y_trans0, (x_fsm _ _ C); auto).
  assert (AL : alloc_en p s i = true -> mshr_alloc_in p s' = mshr_alloc_in p s /\ cq_type (q1 s) <> T_INIT).
  { intros H. apply y_alloc. unfold alloc_en in H. apply andb_prop in H. apply H. }
  assert (KI : is_cinit0 p s i = true <-> fsm s = F_INIT).
  { unfold is_cinit0, trans0. split; [|intros ->; auto]. destruct (fsm s); auto;
    repeat match goal with |- context [if ?b then _ else _] => destruct b end; discriminate. }
  assert (KI1 : creg_en1 p s i = true -> reg_en1 p s i = false -> fsm s = F_INIT /\ trans0 p s i = TR_CACHE_INIT).
  { unfold creg_en1. intros H1 H2. rewrite H2 in H1. cbn [orb] in H1. split; [apply KI; auto|].
    unfold trans0. rewrite (proj1 KI H1). auto. }
  assert (KR : reg_en1 p s i = true -> fsm s <> F_INIT).
  { unfold reg_en1. intros H F. rewrite (proj2 KI F), andb_false_r in H. discriminate H. }
  destruct y_rep as [RP1 RP2]. destruct y_wr0 as [WR0 WB0].
  constructor; cbn [fsm ctr mrv mrm msn msr t1 wp1 utw1 q1 fi1 dm1 rep tram tdout tsr hsr wst
       t2 ev2 hit2 fs2 q2 wm2 dram ddout dsr next].
  - rewrite RE0, y_fsmn, (x_fsm _ _ C). auto.
  - rewrite RE0, CT, (x_ctr _ _ C). unfold ctr_dec. rewrite (x_ctr _ _ C). auto.
  - rewrite RE0, (ie_men _ _ E), (x_mrv _ _ C). auto.
  - rewrite RE0. destruct (reg_en0 p s i); [apply (ie_mresp _ _ E) | apply (x_mrm _ _ C)].
  - rewrite AE, DE, (x_msn _ _ C). auto.
  - rewrite AE, (x_msr _ _ C). destruct (alloc_en p s i); auto. apply AL; auto.
  - destruct (alloc_en p s i); [|apply (x_mst _ _ C)]. cbn [mshr_alloc_in ms_req cq_type]. apply AL; auto.
  - rewrite CE1, y_trans0, y_t1. auto.
  - destruct (creg_en1 p s i); [apply notinit0 | apply (x_ni _ _ C)].
  - rewrite CE1, (x_msr _ _ C), (x_wp1 _ _ C). auto.
  - rewrite CE1, y_utw, (x_utw1 _ _ C). auto.
  - rewrite RE1. destruct (reg_en1 p s i) eqn:R1.
    + assert (CR : creg_en1 p s i = true) by (unfold creg_en1; rewrite R1; auto). rewrite CR. apply y_q0.
    + destruct (creg_en1 p s i) eqn:CR; [|apply (x_q1 _ _ C)]. destruct (KI1 eq_refl eq_refl) as [_ ->]. discriminate.
  - rewrite RE1. intros H. assert (H' : fsm s = F_INIT \/ reg_en1 p s i = false /\ t1 s = TR_CACHE_INIT).
    { destruct H as [H | H].
      - left. destruct (reg_en0 p s i); auto. unfold fsm_next in H. destruct (fsm s); auto; exfalso;
        repeat match type of H with context [if ?b then _ else _] => destruct b end; discriminate H.
      - destruct (creg_en1 p s i) eqn:CR.
        + left. apply KI. unfold is_cinit0. rewrite H. auto.
        + right. split; auto. unfold creg_en1 in CR. destruct (reg_en1 p s i); auto. }
    destruct H' as [H' | [H1 H2]].
    + destruct (reg_en1 p s i) eqn:R1; [destruct (KR eq_refl H')|]. apply (x_qi _ _ C); auto.
    + rewrite H1. apply (x_qi _ _ C); auto.
  - rewrite CE1, y_init, (x_fi1 _ _ C). auto.
  - rewrite RE1, (x_msr _ _ C), (x_dm1 _ _ C). auto.
  - unfold rep_en1. rewrite RP1, y_os2, (x_rep _ _ C). destruct (repreq_en1 p s) eqn:R; auto. cbn [andb].
    destruct (RP2 eq_refl) as [-> ->]. auto.
  - intros w k. rewrite !memo_eq, y_val0, WR0, WB0. unfold sram_wr.
    destruct (tag_val0 p s i w) eqn:V; cbn [andb]; [|apply (x_tram _ _ C)].
    destruct (cs0_wr p s i) eqn:R; [|apply (x_tram _ _ C)].
    rewrite (y_idx0 w V). unfold upd. destruct (k =? tag_idx0 p s i); [|apply (x_tram _ _ C)].
    apply (y_write w V R). apply (x_tram _ _ C).
  - intros w. rewrite !memo_eq, y_val0, WR0. unfold sram_rd.
    destruct (tag_val0 p s i w) eqn:V; cbn [andb]; [|apply (x_tdout _ _ C)].
    destruct (cs0_wr p s i); cbn [negb]; [apply (x_tdout _ _ C)|].
    rewrite (y_idx0 w V). apply (x_tram _ _ C).
  - apply y_tagq.
  - intros H T. apply y_hitq.
    assert (KT : t1 s = (if creg_en1 p s i then trans0 p s i else t1 s)).
    { destruct (creg_en1 p s i) eqn:CR; auto. exfalso.
      destruct (reg_en1 p s i) eqn:R1.
      - unfold reg_en1 in R1. apply andb_prop in R1. destruct R1 as [R1 _]. apply andb_prop in R1. destruct R1 as [R1 R2].
        apply negb_true_iff in R1. apply negb_true_iff in R2. unfold stall01 in R1. apply orb_false_elim in R1. destruct R1 as [_ R1].
        rewrite R1, R2 in H. unfold creg_en2, reg_en2 in H. rewrite R1 in H. cbn [negb andb orb] in H.
        destruct (is_cinit1 s); discriminate H.
      - destruct (KI1 eq_refl eq_refl) as [_ Q]. rewrite Q in T. discriminate T. }
    rewrite KT. exact T.
  - apply y_os2.
  - rewrite CE2, y_t1, (x_t2 _ _ C). auto.
  - rewrite CE2, y_ev1, (x_ev2 _ _ C). auto.
  - rewrite CE2, y_hit1, (x_hit2 _ _ C). auto.
  - rewrite CE2, y_hfs, (x_fs2 _ _ C). auto.
  - rewrite RE2. intros H. destruct (creg_en2 s i) eqn:CR.
    + destruct (reg_en2 s i) eqn:R2; [apply y_q12; auto|].
      unfold creg_en2 in CR. rewrite R2 in CR. cbn [orb] in CR. unfold is_cinit1 in CR. destruct (t1 s); discriminate.
    + assert (R2 : reg_en2 s i = false) by (unfold creg_en2 in CR; destruct (reg_en2 s i); auto; discriminate CR).
      rewrite R2. apply (x_q2 _ _ C); auto.
  - rewrite RE2. intros H F. destruct (creg_en2 s i) eqn:CR.
    + destruct (reg_en2 s i) eqn:R2; [cbn [q1_2 cq_addr]; apply y_addr; auto|].
      unfold creg_en2 in CR. rewrite R2 in CR. cbn [orb] in CR. unfold is_cinit1 in CR. rewrite H in CR. discriminate CR.
    + assert (R2 : reg_en2 s i = false) by (unfold creg_en2 in CR; destruct (reg_en2 s i); auto; discriminate CR).
      rewrite R2. apply (x_q2f _ _ C); auto.
  - rewrite RE2, y_wm, (x_wm2 _ _ C). auto.
  - unfold cs1_val, cs1_wr. rewrite y_cs1. fold (cs1_val p s). fold (cs1_wr p s).
    unfold sram_wr. rewrite (x_dram _ _ C). destruct (cs1_val p s) eqn:V; auto. cbn [andb].
    destruct (y_drow V) as [-> D]. destruct (cs1_wr p s) eqn:R; auto. destruct (D eq_refl) as [-> ->]. auto.
  - unfold cs1_val, cs1_wr. rewrite y_cs1. fold (cs1_val p s). fold (cs1_wr p s).
    unfold sram_rd. rewrite (x_dram _ _ C), (x_ddout _ _ C). destruct (cs1_val p s) eqn:V; auto. cbn [andb].
    destruct (y_drow V) as [-> D]. auto.
  - apply y_dataq.
Qed.
End One.

Lemma reset_ieq : forall s, reset_state p s -> ieq s s.
Proof.
  intros s R. destruct R as (R1 & R2 & R3 & R4 & R5 & R6 & R7 & R).
  constructor; auto; try (intros; apply ter_refl).
  - rewrite R6. discriminate.
  - rewrite R7. discriminate.
  - rewrite R7. discriminate.
Qed.

(** step of [good] *)
Lemma good_next : forall s a i, good s a -> legal p s (a_outst a) i ->
  exists a', good (next p s i) a' /\ a_outst a' = outst_next (a_outst a) i (output p s i).
Proof.
  intros s a i [P | [(k & P) O]] L.
  - destruct (step_sim p W s a i P L) as (a' & AC & P'). exists a'. split; [left; auto|]. eapply acyc_outst; eauto.
  - rewrite O in *. destruct (init_step p W s k i P L) as (OU & RE & NM & N').
    assert (ON : outst_next [] i (output p s i) = []) by (unfold outst_next; rewrite OU, NM; auto). rewrite ON.
    destruct N' as [(K & N') | (K & c0 & _ & N')].
    + exists a. split; [right; eauto | auto].
    + eexists. split; [left; eauto | auto].
Qed.

Theorem idle_run : forall is is' s s' a, ieq s s' -> good s a -> legal_run p s (a_outst a) is -> Forall2 idle_eq is is' ->
  map drop_out (snd (run p s' is')) = map drop_out (snd (run p s is)) /\ ieq (fst (run p s is)) (fst (run p s' is')).
Proof.
  induction is as [|i is IH]; intros is' s s' a C G L F; inversion F as [|? i' ? is2 F1 F2]; subst; [auto|].
  destruct L as [L1 L2]. destruct (good_next s a i G L1) as (a' & G' & O). rewrite <- O in L2.
  destruct (IH _ _ _ _ (y_next s s' i i' a C F1 G L1) G' L2 F2) as [H1 H2].
  cbn [run step]. destruct (run p (next p s i) is) as [u os]. destruct (run p (next p s' i') is2) as [u' os'].
  cbn [fst snd map] in *. split; auto. f_equal; auto. eapply y_out; eauto.
Qed.
End I.
