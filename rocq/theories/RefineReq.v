(** Wires of stage M1 while it looks up a request, and acceptance of a request. *)
From Coq Require Import NArith List Bool Lia.
From Verif Require Import Bits Params Msg Units Rtl Tl ParamsProofs RtlLemmas RefineInv RefineStall.
Import ListNotations.
Open Scope N_scope.

Section R.
Variable p : params.

Lemma pu_compare_ext : forall en ii tag e e', (forall w, e w = e' w) ->
  pu_compare p en ii tag e = pu_compare p en ii tag e'.
Proof.
  intros. unfold pu_compare. destruct (negb ii && en); auto.
  generalize (false, false, 0). induction (range (p_assoc p)); intro acc; cbn; auto.
  rewrite IHl. f_equal. unfold pu_way. rewrite H. auto.
Qed.

(** a request [r] is being looked up in cache [c] *)
Record looking (s : st) (c : cst) (r : creq) : Prop := mkLook {
  lk_ty : is_rw (cq_type r) || is_amo (cq_type r) = true;
  lk_t1 : t1 s = req_trans (cq_type r);
  lk_ev2 : ev2 s = false;
  lk_tagq : forall w, tagq s w = tl_ent p c r w;
  lk_q1 : q1 s = pipe_req p r;
  lk_r : forall k, rep s k = cr c k
}.

Section W.
Variables (s : st) (c : cst) (r : creq).
Hypothesis L : looking s c r.

Lemma lw_en : tag_proc_en s = true.
Proof.
  unfold tag_proc_en. rewrite (lk_ev2 _ _ _ L), (lk_t1 _ _ _ L).
  destruct (req_trans_cases _ (lk_ty _ _ _ L)) as [(_ & -> & _) | [(_ & -> & _) | (_ & -> & _)]]; auto.
Qed.
Lemma lw_init : is_init1 s = false.
Proof.
  unfold is_init1. rewrite (lk_t1 _ _ _ L).
  destruct (req_trans_cases _ (lk_ty _ _ _ L)) as [(_ & -> & _) | [(_ & -> & _) | (_ & -> & _)]]; auto.
Qed.
Lemma lw_pu : pu p s = tl_pu p c r.
Proof.
  unfold pu, tl_pu. rewrite lw_en, lw_init, (lk_q1 _ _ _ L). cbn [cq_addr pipe_req].
  apply pu_compare_ext. apply (lk_tagq _ _ _ L).
Qed.
Lemma lw_hit : pu_hit p s = tl_hit p c r. Proof. unfold pu_hit. rewrite lw_pu. auto. Qed.
Lemma lw_inval : pu_inval p s = tl_inval p c r. Proof. unfold pu_inval. rewrite lw_pu. auto. Qed.
Lemma lw_hw : pu_hit_way p s = tl_hw p c r. Proof. unfold pu_hit_way. rewrite lw_pu. auto. Qed.
Lemma lw_idx : idx1 p s = a_idx p (cq_addr r).
Proof. unfold idx1. rewrite (lk_q1 _ _ _ L). auto. Qed.
Lemma lw_off : off1 p s = a_off p (cq_addr r).
Proof. unfold off1. rewrite (lk_q1 _ _ _ L). auto. Qed.
Lemma lw_rep : rep_rd p s = tl_rep p c r.
Proof. unfold rep_rd. rewrite (lk_r _ _ _ L), lw_idx. auto. Qed.
Lemma lw_ent : forall w, pu_ent s w = tl_ent p c r w.
Proof. intros. unfold pu_ent, pu_entry. rewrite lw_en. apply (lk_tagq _ _ _ L). Qed.
Lemma lw_ld : forall w, pu_ld p s w = line_dirty p true (tl_ent p c r w).
Proof. intros. unfold pu_ld. rewrite lw_en, (lk_tagq _ _ _ L). auto. Qed.
Lemma lw_wd : forall w, pu_wd p s w = word_dirty p (tl_ent p c r w) (a_off p (cq_addr r)) (cq_len r).
Proof. intros. unfold pu_wd. rewrite (lk_tagq _ _ _ L), lw_off, (lk_q1 _ _ _ L). auto. Qed.

Lemma lw_rwi : is_rwi1 s = is_rw (cq_type r).
Proof.
  unfold is_rwi1. rewrite (lk_t1 _ _ _ L).
  destruct (req_trans_cases _ (lk_ty _ _ _ L)) as [(_ & -> & -> & _) | [(_ & -> & -> & _) | (_ & -> & ->)]]; auto.
Qed.
Lemma rw_not_amo : is_rw (cq_type r) = negb (is_amo (cq_type r)).
Proof.
  destruct (req_trans_cases _ (lk_ty _ _ _ L)) as [(_ & _ & -> & ->) | [(_ & _ & -> & ->) | (-> & _ & ->)]]; auto.
Qed.
Lemma lw_amo : is_amo1 s = is_amo (cq_type r).
Proof.
  unfold is_amo1. rewrite (lk_t1 _ _ _ L).
  destruct (req_trans_cases _ (lk_ty _ _ _ L)) as [(_ & -> & _ & ->) | [(_ & -> & _ & ->) | (-> & -> & _)]]; auto.
Qed.
Lemma lw_hit1 : hit1 p s = tl_hit p c r.
Proof. unfold hit1. rewrite lw_rwi, lw_amo, (lk_ty _ _ _ L). apply lw_hit. Qed.
Lemma lw_evict : is_evict1 p s = tl_evict p c r.
Proof.
  unfold is_evict1, is_dty1. rewrite lw_rwi, lw_amo, lw_hit1, lw_inval, lw_hw, lw_rep, !lw_ld, rw_not_amo.
  unfold tl_evict, tl_isamo. destruct (is_amo (cq_type r)); cbn; auto.
  destruct (tl_hit p c r); auto.
Qed.
Lemma lw_whc : write_hit_clean p s = is_rw (cq_type r) && tl_hit p c r && tl_clean_hit p c r.
Proof.
  unfold write_hit_clean, is_dty1. rewrite lw_rwi, lw_inval, lw_hit1, lw_hw, lw_wd, lw_rep, lw_ld.
  unfold tl_clean_hit. rewrite (lk_t1 _ _ _ L).
  destruct (req_trans_cases _ (lk_ty _ _ _ L)) as [(E & -> & -> & _) | [(E & -> & -> & _) | (E & -> & ->)]];
    cbn; auto; rewrite E; cbn; rewrite ?andb_true_r, ?andb_false_r; auto.
  destruct (tl_inval p c r), (tl_hit p c r); cbn; auto.
Qed.
Lemma lw_repen : repreq_en1 p s = tl_rep_en p c r && negb (is_rw (cq_type r) && tl_evict p c r).
Proof.
  unfold repreq_en1, tl_rep_en, tl_isamo.
  rewrite lw_rwi, lw_amo, lw_init, lw_evict, lw_hit1, lw_inval, rw_not_amo.
  destruct (is_amo (cq_type r)); cbn; rewrite ?andb_true_r; auto.
Qed.
Lemma lw_repwr : repreq_en1 p s = true -> rep_wr p s = tl_rep' p c r.
Proof.
  intros E. pose proof E as E'. rewrite lw_repen in E'. unfold rep_wr. rewrite E.
  unfold repreq_is_hit1, repreq_hit_ptr1, tl_rep', tl_isamo.
  rewrite lw_rwi, lw_amo, lw_evict, lw_hit1, lw_inval, lw_hw, lw_rep.
  unfold tl_rep_en, tl_isamo in E'. rewrite rw_not_amo in *.
  destruct (is_amo (cq_type r)); cbn in E' |- *.
  - rewrite andb_true_r in E'. rewrite E'. auto.
  - destruct (tl_evict p c r); try discriminate. cbn. auto.
Qed.
Lemma lw_way : (is_amo (cq_type r) = true -> hitq p s = hsr_in p s) -> way_offset1 p s = tl_way p c r.
Proof.
  intros HQ. unfold way_offset1. rewrite (lk_t1 _ _ _ L).
  unfold tl_way, tl_isamo.
  destruct (req_trans_cases _ (lk_ty _ _ _ L)) as [(E & -> & _ & ->) | [(E & -> & _ & ->) | (E & -> & _)]];
   rewrite ?E, ?lw_hit1, ?lw_inval, ?lw_hw, ?lw_rep; auto.
  - destruct (tl_hit p c r); auto.
  - destruct (tl_hit p c r); auto.
  - rewrite HQ by auto. cbn. apply lw_hw.
Qed.
Lemma lw_way_rw : is_rw (cq_type r) = true -> way_offset1 p s = tl_way p c r.
Proof. intros. apply lw_way. rewrite rw_not_amo in H. destruct (is_amo _); discriminate. Qed.

(** data array command of a READ/WRITE *)
Lemma lw_evmux : cs1_evmux p s = tl_evict p c r.
Proof.
  unfold cs1_evmux, cs1. rewrite (lk_t1 _ _ _ L), lw_evict, lw_hit1.
  destruct (req_trans_cases _ (lk_ty _ _ _ L)) as [(_ & -> & _) | [(_ & -> & _) | (_ & -> & _)]];
    destruct (tl_evict p c r); auto; destruct (tl_hit p c r); auto.
Qed.
Lemma lw_alloc : cs1_alloc p s = tl_evict p c r || is_amo (cq_type r) || negb (tl_hit p c r).
Proof.
  unfold cs1_alloc, cs1. rewrite (lk_t1 _ _ _ L), lw_evict, lw_hit1.
  destruct (req_trans_cases _ (lk_ty _ _ _ L)) as [(_ & -> & _ & ->) | [(_ & -> & _ & ->) | (-> & -> & _)]];
    destruct (tl_evict p c r); auto; destruct (tl_hit p c r); auto.
Qed.
Lemma hit_noevict : is_rw (cq_type r) = true -> tl_hit p c r = true -> tl_evict p c r = false.
Proof.
  intros H1 H2. rewrite rw_not_amo in H1. unfold tl_evict, tl_isamo. destruct (is_amo _); try discriminate.
  rewrite H2. cbn. apply andb_false_r.
Qed.
Lemma hit_way : is_rw (cq_type r) = true -> tl_hit p c r = true -> tl_way p c r = tl_hw p c r.
Proof.
  intros H1 H2. rewrite rw_not_amo in H1. unfold tl_way, tl_isamo. destruct (is_amo _); try discriminate.
  rewrite H2. auto.
Qed.
Lemma lw_drow : is_rw (cq_type r) = true -> tl_hit p c r = true -> drow1 p s = tl_row p r (tl_hw p c r).
Proof.
  intros H1 H2. unfold drow1, addr1_2. rewrite lw_evmux, hit_noevict, lw_way_rw, hit_way by auto.
  rewrite (lk_q1 _ _ _ L). auto.
Qed.

Lemma lw_dnext : forall k, dram s k = cd c k -> dram s (drow1 p s) = cd c (drow1 p s) ->
  dnext p s k = (if is_rw (cq_type r) && tl_hit p c r
      then tl_wdat p r (cd c) (tl_hw p c r) (tl_data p r) else cd c) k.
Proof.
  intros k D D'. unfold dnext, sram_wr.
  assert (CS : cs1_val p s && cs1_wr p s =
               (cq_type r =? T_WRITE) && tl_hit p c r).
  { unfold cs1_val, cs1_wr, cs1. rewrite lw_hit1, lw_evict.
    destruct (req_trans_cases _ (lk_ty _ _ _ L)) as [(E & T & H & _) | [(E & T & H & _) | (E & T & H)]];
      rewrite (lk_t1 _ _ _ L), T.
    - rewrite E. cbn. destruct (tl_evict p c r); auto. destruct (tl_hit p c r); auto.
    - rewrite E. cbn. destruct (tl_hit p c r) eqn:HT.
      + rewrite hit_noevict by auto. auto.
      + destruct (tl_evict p c r); auto.
    - destruct (N.eqb_spec (cq_type r) T_WRITE) as [Q|Q]; [rewrite Q in E; discriminate|].
      destruct (tl_evict p c r); auto. }
  rewrite CS. unfold tl_wdat.
  destruct (cq_type r =? T_WRITE) eqn:W; cbn [andb].
  - assert (RW : is_rw (cq_type r) = true) by (unfold is_rw; rewrite W, orb_true_r; auto).
    rewrite RW. destruct (tl_hit p c r) eqn:HT; cbn [andb]; auto.
    rewrite lw_drow in * by auto.
    unfold upd. destruct (k =? _); auto. rewrite D'. f_equal; [rewrite (lk_q1 _ _ _ L); auto|].
    unfold dwben1, cs1_wben, cs1. apply N.eqb_eq in W.
    rewrite (lk_t1 _ _ _ L), W. cbn [req_trans N.eqb T_WRITE T_READ].
    change (req_trans 1) with TR_WRITE_REQ. rewrite lw_evict, hit_noevict, lw_hit1, HT by auto.
    cbn. rewrite lw_off, (lk_q1 _ _ _ L). auto.
  - destruct (is_rw (cq_type r) && tl_hit p c r); auto.
Qed.

(** tag write of a clean write hit *)
Lemma lw_tnext : forall w k, fsm s = F_READY -> mrv s = false ->
  (forall w k, tram s w k = ct c w k) ->
  tnext p s w k = (if is_rw (cq_type r) && tl_hit p c r then tl_wtag p c r (ct c) else ct c) w k.
Proof.
  intros w k F MV T. destruct (write_hit_clean p s) eqn:WH.
  - pose proof WH as WH'. rewrite lw_whc in WH'. apply andb_prop in WH'. destruct WH' as [-> CH].
    unfold tl_wtag. rewrite CH.
    assert (TR : trans0 p s idle_inp = TR_CLEAN_HIT) by (unfold trans0; rewrite F, WH; auto).
    unfold tnext. rewrite tram_next. unfold cs0_wr, cs0_wben, tag_val0, tag_idx0, tag_wdata0,
      cs0_idxsel, tag_tag0, cs0_tagsel, new_entry0, cs0_cmd, addr0, len0, cs0_admux, upd_way_mux0, cs0_tagsel, cs0, is_ctr_way0.
    rewrite TR. cbn [fst snd].
    rewrite lw_hw, lw_ent, (lk_q1 _ _ _ L). cbn [update_tag pipe_req cq_addr cq_len fst snd].
    unfold sram_wr, tset, upd, wben_all, ones_te. rewrite !T.
    destruct (N.eqb_spec w (tl_hw p c r)) as [Ew|Ew]; cbn [andb]; auto.
    destruct (N.eqb_spec k (a_idx p (cq_addr r))) as [Ek|Ek]; [|subst; auto].
    subst w k. auto.
  - rewrite tnext_invalid.
    + rewrite lw_whc in WH. unfold tl_wtag.
      destruct (is_rw (cq_type r) && tl_hit p c r); auto. cbn in WH. rewrite WH. auto.
    + apply trans0_ready_idle; auto. apply mr_val_mrv; auto.
Qed.
End W.

(** ** Accepting a request (or not) *)
Lemma req_rdy_inv : forall s i, req_rdy p s i = true ->
  write_hit_clean p s = false /\ stall01 p s i = false /\ msn s = 0 /\ cs1_alloc p s = false.
Proof.
  intros s i H. unfold req_rdy in H. apply negb_true_iff in H.
  repeat (apply orb_false_elim in H; destruct H as [H ?]).
  apply negb_false_iff in H1. unfold mshr_empty in H1. apply N.eqb_eq in H1.
  repeat split; auto.
  unfold mshr_full in H0. rewrite H1 in H0. cbn in H0. unfold alloc_en in H0. rewrite H2 in H0.
  cbn in H0. now rewrite andb_true_r in H0.
Qed.

Lemma trans0_req : forall s i, fsm s = F_READY -> mrv s = false -> msn s = 0 ->
  write_hit_clean p s = false -> i_req_en i = true -> wf_type (cq_type (i_req i)) ->
  trans0 p s i = req_trans (cq_type (i_req i)).
Proof.
  intros s i F MV MS WH RE WT. unfold trans0, mshr_empty. rewrite F, WH, RE, MS.
  rewrite mr_val_mrv by auto. cbn [andb N.eqb]. unfold req_type0, req_mux0, mux_sel0. rewrite F, MV.
  cbn [fsm_eqb orb]. unfold req_trans.
  destruct WT as [-> | [-> | [A | [-> | ->]]]]; auto.
  rewrite A. destruct (N.eqb_spec (cq_type (i_req i)) T_INIT) as [E|E]; [rewrite E in A; discriminate|].
  destruct (N.eqb_spec (cq_type (i_req i)) T_READ) as [E1|E1]; auto.
Qed.

Hypothesis W : wf_params p.

Lemma ctr_dec_prev : forall s, ctr s < total_lines p -> ctr_dec p s = prev_line p (ctr s).
Proof.
  intros s H. unfold ctr_dec, prev_line, last_line. rewrite trunc_mod.
  pose proof (total_ge2 p W) as G2.
  rewrite <- (total_pow p W).
  destruct (N.eqb_spec (ctr s) 0) as [E|E].
  - rewrite E, N.add_0_l. apply N.mod_small. lia.
  - replace (ctr s + (total_lines p - 1)) with ((ctr s - 1) + 1 * total_lines p) by lia.
    rewrite N.mod_add by lia. apply N.mod_small. lia.
Qed.

Lemma lfrom_one : forall f k T w j, k = last_line p ->
  lfrom p f k T w j = if inrange p w j && (lnum p w j =? k) then f (T w j) else T w j.
Proof.
  intros. unfold lfrom. destruct (inrange p w j) eqn:R; auto. cbn [andb].
  unfold inrange in R. apply andb_prop in R. destruct R as [R1 R2].
  apply N.ltb_lt in R1, R2. pose proof (lnum_lt p W w j R1 R2). unfold last_line in H.
  destruct (N.leb_spec k (lnum p w j)), (N.eqb_spec (lnum p w j) k); auto; lia.
Qed.

(** which entry line [k] is *)
Lemma line_is : forall k w j, k < total_lines p -> 
  inrange p w j && (lnum p w j =? k) = (w =? lway p k) && (j =? lidx p k).
Proof.
  intros. unfold inrange.
  destruct (N.eqb_spec w (lway p k)) as [E|E], (N.eqb_spec j (lidx p k)) as [E'|E']; cbn [andb].
  - subst. rewrite lnum_l, N.eqb_refl by auto.
    pose proof (lway_lt p W k). pose proof (lidx_lt p W k H).
    rewrite (proj2 (N.ltb_lt _ _) H0), (proj2 (N.ltb_lt _ _) H1). auto.
  - apply andb_false_iff. destruct (N.ltb_spec w (p_assoc p)), (N.ltb_spec j (nblocks p)); auto.
    cbn. right. apply N.eqb_neq. intro Q. subst k. rewrite lidx_lnum in E' by auto. auto.
  - apply andb_false_iff. destruct (N.ltb_spec w (p_assoc p)), (N.ltb_spec j (nblocks p)); auto.
    cbn. right. apply N.eqb_neq. intro Q. subst k. rewrite lway_lnum in E by auto. auto.
  - apply andb_false_iff. destruct (N.ltb_spec w (p_assoc p)), (N.ltb_spec j (nblocks p)); auto.
    cbn. right. apply N.eqb_neq. intro Q. subst k. rewrite lway_lnum in E by auto. auto.
Qed.

(** tag write of line [k] by the line counter *)
Lemma inv_write : forall s i w j, trans0 p s i = TR_INV_WRITE \/ trans0 p s i = TR_REPLAY_INV ->
  ctr s < total_lines p ->
  tram (next p s i) w j =
   if inrange p w j && (lnum p w j =? ctr s) then ent_inv p (tram s w j) else tram s w j.
Proof.
  intros s i w j T C. rewrite line_is by auto. rewrite tram_next.
  unfold sram_wr.
  assert (V : tag_val0 p s i w = (w =? lway p (ctr s))).
  { unfold tag_val0, is_ctr_way0, ctr_way0, upd_way_idx0, lway. destruct T as [-> | ->]; auto. }
  assert (X : tag_idx0 p s i = lidx p (ctr s)).
  { unfold tag_idx0, cs0_idxsel, cs0, init_idx0, upd_way_idx0, lidx. destruct T as [-> | ->]; auto. }
  assert (WR : cs0_wr p s i = true) by (unfold cs0_wr, cs0; destruct T as [-> | ->]; auto).
  assert (WB : cs0_wben p s i = mk_te p true 0 0) by (unfold cs0_wben, cs0; destruct T as [-> | ->]; auto).
  assert (WD : exists d t, tag_wdata0 p s i = mk_te p false d t).
  { unfold tag_wdata0, new_entry0, cs0_cmd, cs0. destruct T as [-> | ->]; cbn; eauto. }
  destruct WD as (d & t & WD). rewrite V, X, WR, WB, WD, mwrite_val_any, andb_true_r.
  unfold upd. destruct (w =? lway p (ctr s)); cbn; auto.
  destruct (N.eqb_spec j (lidx p (ctr s))); subst; auto.
Qed.

Lemma flush_write : forall s i w j k, trans0 p s i = TR_FLUSH_WRITE \/ trans0 p s i = TR_REPLAY_FLUSH ->
  tag_proc_en s = false \/ t1 s = TR_FLUSH_READ /\ line_dirty p true (tagq s (lway p k)) = false ->
  ctr s = prev_line p k -> k < total_lines p ->
  tram (next p s i) w j =
   if inrange p w j && (lnum p w j =? k) then ent_clean p (tram s w j) else tram s w j.
Proof.
  intros s i w j k T PE C K. rewrite line_is by auto. rewrite tram_next.
  assert (UW : trunc (bw_lines p) (ctr s + 1) = k).
  { rewrite C, trunc_mod, <- (total_pow p W). unfold prev_line, last_line. pose proof (total_ge2 p W).
    destruct (N.eqb_spec k 0) as [->|].
    - replace (total_lines p - 1 + 1) with (total_lines p) by lia. apply N.mod_same. lia.
    - replace (k - 1 + 1) with k by lia. apply N.mod_small; auto. }
  assert (U : upd_way_idx0 p s i = k).
  { unfold upd_way_idx0. destruct T as [-> | ->]; cbn; auto. }
  unfold sram_wr.
  assert (V : tag_val0 p s i w = (w =? lway p k)).
  { unfold tag_val0, is_ctr_way0, ctr_way0, lway. rewrite U. destruct T as [-> | ->]; auto. }
  assert (X : tag_idx0 p s i = lidx p k).
  { unfold tag_idx0, cs0_idxsel, cs0, init_idx0, lidx. rewrite U. destruct T as [-> | ->]; auto. }
  assert (WR : cs0_wr p s i = true) by (unfold cs0_wr, cs0; destruct T as [-> | ->]; auto).
  assert (WB : cs0_wben p s i = mk_te p false (N.ones (dtyw p)) 0) by (unfold cs0_wben, cs0; destruct T as [-> | ->]; auto).
  assert (WD : exists v t, tag_wdata0 p s i = mk_te p v 0 t).
  { unfold tag_wdata0, new_entry0, cs0_cmd, upd_way_mux0, cs0_tagsel, upd_tag_way0, is_ctr_way0, ctr_way0, cs0.
    rewrite U. fold (lway p k).
    assert (Z : te_dty p (pu_ent s (lway p k)) = 0).
    { unfold pu_ent, pu_entry. destruct (tag_proc_en s) eqn:E; [|apply te_dty_0].
      destruct PE as [PE | [_ PE]]; [discriminate|]. unfold line_dirty in PE. cbn in PE.
      apply negb_false_iff, N.eqb_eq in PE. auto. }
    destruct T as [-> | ->]; cbn; rewrite Z; eauto. }
  destruct WD as (v & t & WD). rewrite V, X, WR, WB, WD, mwrite_dty_any, andb_true_r.
  unfold upd. destruct (w =? lway p k); cbn; auto.
  destruct (N.eqb_spec j (lidx p k)); subst; auto.
Qed.

Lemma lfrom_step : forall f k T w j, k < total_lines p ->
  lfrom p f k T w j = if inrange p w j && (lnum p w j =? k) then f (T w j) else lfrom p f (k + 1) T w j.
Proof.
  intros. unfold lfrom. destruct (inrange p w j); auto. cbn [andb].
  destruct (N.leb_spec k (lnum p w j)), (N.eqb_spec (lnum p w j) k), (N.leb_spec (k + 1) (lnum p w j)); auto; lia.
Qed.

Lemma accept : forall s i c, fsm s = F_READY -> mrv s = false -> msn s = 0 -> ctr s = last_line p ->
  is_evict1 p s = false -> ostall2 s i = false -> write_hit_clean p s = false -> cs1_alloc p s = false ->
  legal p s [] i ->
  (forall w k, tram s w k = ct c w k) ->
  (forall k, dnext p s k = cd c k) ->
  (forall k, rep (next p s i) k = cr c k) ->
  mem2 p (next p s i) = None ->
  exists a', o_acc p (mkA c None (ol (resp2 p (next p s i)))) i a' /\ phase p (next p s i) a'.
Proof.
  intros s i c F MV MS CT EV ST WH AL LG T D R M2.
  assert (FI : fsm s <> F_INIT) by (rewrite F; discriminate).
  pose proof (noresp p s i LG) as NM.
  pose proof (total_ge2 p W) as G2.
  set (s' := next p s i) in *.
  assert (Hfsm : fsm s' = fsm_next p s i) by (apply an_fsm; auto).
  assert (Hmrv : mrv s' = false) by (unfold s'; rewrite an_mrv; auto).
  assert (Ht1 : t1 s' = trans0 p s i) by (apply an_t1; auto).
  assert (Hev2 : ev2 s' = false) by (unfold s'; rewrite an_ev2; auto).
  assert (Hdr : forall k, dram s' k = cd c k) by (intro; unfold s'; rewrite an_dram; auto).
  assert (TR : trans0 p s i = if i_req_en i then req_trans (cq_type (i_req i)) else TR_INVALID).
  { destruct (i_req_en i) eqn:E.
    - apply trans0_req; auto. apply (lg_req _ _ _ _ LG E).
    - apply trans0_ready_idle; auto. apply mr_val_mrv; auto. }
  assert (NW : cs0_wr p s i = false).
  { eapply cs0_wr_t; [exact TR|]. unfold req_trans.
    destruct (i_req_en i); auto.
    destruct (_ =? _); auto. destruct (_ =? _); auto. destruct (is_amo _); auto. destruct (_ =? _); auto. }
  assert (Htr : forall w k, tram s' w k = ct c w k).
  { intros. unfold s'. rewrite tram_next. unfold sram_wr. rewrite NW, andb_false_r. auto. }
  assert (Hmsn : msn s' = 0).
  { unfold s'. rewrite an_msn by auto. rewrite AL.
    replace (cs0_dealloc p s i) with false; auto.
    unfold cs0_dealloc, cs0. rewrite TR. unfold req_trans. destruct (i_req_en i); auto.
    destruct (_ =? _); auto. destruct (_ =? _); auto. destruct (is_amo _); auto. destruct (_ =? _); auto. }
  assert (Hctr : ctr s' = last_line p).
  { unfold s'. rewrite an_ctr by auto. replace (ctr_en p s i) with false; auto.
    unfold ctr_en. rewrite F, TR. cbn. unfold req_trans. destruct (i_req_en i); auto.
    destruct (_ =? _); auto. destruct (_ =? _); auto. destruct (is_amo _); auto. destruct (_ =? _); auto. }
  assert (RM : i_req_en i = true -> req_mux0 s i = i_req i).
  { intros. unfold req_mux0, mux_sel0. rewrite F, MV. auto. }
  destruct (i_req_en i) eqn:RE.
  2:{ (* nothing accepted *)
    eexists. split. { unfold o_acc. rewrite RE. reflexivity. }
    apply P_idle. rewrite TR in Ht1. constructor; cbn [a_cur a_pend a_c]; auto.
    - rewrite Hfsm. unfold fsm_next. rewrite F, RE, andb_false_r.
      rewrite mr_val_mrv by auto. auto.
    - rewrite Ht1. auto.
    - rewrite Ht1. discriminate.
    - unfold resp1. rewrite Ht1. cbn. rewrite app_nil_r. auto.
    - intros. rewrite dnext_nowr; auto. apply cs1_wr_false. rewrite Ht1. auto. }
  destruct (lg_req _ _ _ _ LG RE) as [RDY WT].
  set (r := i_req i) in *.
  eexists. split. { unfold o_acc. rewrite RE. constructor; auto. }
  rewrite TR in Ht1.
  assert (Hq1 : is_rw (cq_type r) || is_amo (cq_type r) = true \/ cq_type r = T_INV \/ cq_type r = T_FLUSH ->
                q1 s' = pipe_req p r).
  { intros K. unfold s'. rewrite an_q1 by auto. unfold q0, addr0, len0, data0, cs0_admux, cs0_wdmux, cs0, is_amo0.
    rewrite TR, RM by auto. fold r.
    destruct K as [K | [K | K]].
    - destruct (req_trans_cases _ K) as [(E & -> & _ & A) | [(E & -> & _ & A) | (A & -> & _)]];
        cbn; unfold pipe_req, tl_data, tl_isamo; rewrite A; auto.
    - rewrite K. cbn. unfold pipe_req, tl_data, tl_isamo; rewrite K; auto.
    - rewrite K. cbn. unfold pipe_req, tl_data, tl_isamo; rewrite K; auto. }
  assert (FN : fsm_next p s i = if cq_type r =? T_INV then F_INV else if cq_type r =? T_FLUSH then F_FLUSH else F_READY).
  { unfold fsm_next. rewrite F, RE. unfold mshr_empty. rewrite MS, mr_val_mrv by auto. cbn [andb N.eqb].
    unfold req_type0. rewrite RM by auto. auto. }
  destruct (is_rw (cq_type r) || is_amo (cq_type r)) eqn:KD.
  - (* READ, WRITE, AMO *)
    assert (TG : forall w, tagq s' w = tl_ent p c r w).
    { intros. unfold s'. rewrite an_tagq by auto. rewrite tdout_next. unfold sram_rd. rewrite NW.
      replace (tag_val0 p s i w) with true.
      - cbn. rewrite T. unfold tl_ent. f_equal. unfold tag_idx0, cs0_idxsel, cs0, addr0, cs0_admux, cs0.
        rewrite TR, RM by auto.
        destruct (req_trans_cases _ KD) as [(_ & -> & _) | [(_ & -> & _) | (_ & -> & _)]]; auto.
      - unfold tag_val0, is_ctr_way0. rewrite TR.
        destruct (req_trans_cases _ KD) as [(_ & -> & _) | [(_ & -> & _) | (_ & -> & _)]]; auto. }
    assert (LK : looking s' c r) by (constructor; auto).
    apply P_req with r. constructor; cbn [a_cur a_pend a_c]; auto.
    + rewrite Hfsm, FN. destruct (req_trans_cases _ KD) as [(-> & _) | [(-> & _) | (A & _)]]; auto.
      destruct (N.eqb_spec (cq_type r) T_INV) as [E|E]; [rewrite E in A; discriminate|].
      destruct (N.eqb_spec (cq_type r) T_FLUSH) as [E'|E']; [rewrite E' in A; discriminate|]. auto.
    + unfold hitq, hsr_en. unfold s' at 1. rewrite an_wst, Hev2 by auto. auto.
    + intros. apply lw_tnext; auto.
      rewrite Hfsm, FN. destruct (req_trans_cases _ KD) as [(-> & _) | [(-> & _) | (A & _)]]; auto.
      destruct (N.eqb_spec (cq_type r) T_INV) as [E|E]; [rewrite E in A; discriminate|].
      destruct (N.eqb_spec (cq_type r) T_FLUSH) as [E'|E']; [rewrite E' in A; discriminate|]. auto.
    + intros. apply lw_dnext; auto.
  - assert (K : cq_type r = T_INV \/ cq_type r = T_FLUSH).
    { apply orb_false_elim in KD. destruct KD as [K1 K2].
      destruct WT as [Q | [Q | [Q | [Q | Q]]]]; auto; try (rewrite Q in K1; discriminate). congruence. }
    destruct K as [K | K].
    + (* INV *)
      assert (Tn : trans0 p s' idle_inp = TR_INV_WRITE).
      { unfold trans0. rewrite Hfsm, FN, K. cbn. rewrite whc_t; auto. rewrite Ht1, K. discriminate. }
      apply P_inv with r (last_line p). constructor; cbn [a_cur a_pend a_c]; auto.
      * rewrite Hfsm, FN, K. auto.
      * unfold last_line. lia.
      * left. split; [rewrite Ht1, K; reflexivity|]. split; [|split]; auto.
      * unfold tl_reqs. fold r. rewrite K. auto.
      * intros. rewrite lfrom_one by auto. unfold tnext.
        rewrite inv_write by (auto; rewrite Hctr; unfold last_line; lia). rewrite Hctr, !Htr. auto.
    + (* FLUSH *)
      apply P_flstart with r. constructor; cbn [a_cur a_pend a_c]; auto.
      * rewrite Hfsm, FN, K. auto.
      * rewrite Ht1, K. auto.
      * unfold tl_reqs. fold r. rewrite K. auto.
Qed.

End R.
