(** Two runs that accept the same requests: the cache contents that can be
    observed do not depend on the schedule or on power-up contents. *)
From Coq Require Import NArith List Bool Lia.
From Verif Require Import Bits Params Msg Units Rtl Mem Tl ParamsProofs RefineProofs Spec UnitProofs ViewDefs ViewOps ViewProofs System SysProofs SysFacts Facts1 Facts2 Traffic MetaProofs Facts3.
Import ListNotations.
Open Scope N_scope.

Section T.
Variable p : params.
Hypothesis W : wf_params p.

(** Equal as far as any later request can tell. *)
Record eqc (c c' : cst) : Prop := mkEqc {
  eq_r : forall i, i < nblocks p -> cr c i = cr c' i;
  eq_v : forall w i, w < p_assoc p -> i < nblocks p -> lval p c w i = lval p c' w i;
  eq_d : forall w i, w < p_assoc p -> i < nblocks p -> te_dty p (ct c w i) = te_dty p (ct c' w i);
  eq_t : forall w i, w < p_assoc p -> i < nblocks p -> present p c w i = true -> ltag p c w i = ltag p c' w i;
  eq_b : forall w i o, w < p_assoc p -> i < nblocks p -> present p c w i = true -> o < 2 ^ offw p ->
           lbyte p c w i o = lbyte p c' w i o
}.

(** Memory requests equal, except for data bits that the port does not have. *)
Definition req_eq (q q' : mreq) : Prop :=
  mq_type q = mq_type q' /\ mq_opq q = mq_opq q' /\ mq_addr q = mq_addr q' /\ mq_len q = mq_len q' /\
  mq_mask q = mq_mask q' /\ trunc (p_clw p) (mq_data q) = trunc (p_clw p) (mq_data q').
Lemma req_eq_refl : forall q, req_eq q q. Proof. intros; repeat split. Qed.

Lemma bytes_eq : forall L L', (forall o, o < 2 ^ offw p -> gb L o = gb L' o) -> trunc (p_clw p) L = trunc (p_clw p) L'.
Proof.
  intros L L' H. apply N.bits_inj; intro i. rewrite !testbit_trunc.
  destruct (N.ltb_spec i (p_clw p)) as [I|I]; cbn [andb]; auto.
  assert (O : i / 8 < 2 ^ offw p). { rewrite (clw_off p W) in I. apply N.div_lt_upper_bound; lia. }
  specialize (H _ O). apply (f_equal (fun z => N.testbit z (i mod 8))) in H. rewrite !testbit_gb in H.
  pose proof (N.mod_lt i 8 ltac:(lia)) as M. pose proof (N.div_mod' i 8) as D.
  rewrite (proj2 (N.ltb_lt _ _) M) in H. cbn [andb] in H. rewrite <- D in H. auto.
Qed.
Lemma eq_bytes : forall L L' o, trunc (p_clw p) L = trunc (p_clw p) L' -> o < 2 ^ offw p -> gb L o = gb L' o.
Proof.
  intros L L' o E O. apply gb_ext. intros i I. apply (f_equal (fun z => N.testbit z (8 * o + i))) in E.
  rewrite !testbit_trunc in E. assert (X : 8 * o + i < p_clw p) by (rewrite (clw_off p W); lia).
  rewrite (proj2 (N.ltb_lt _ _) X) in E. auto.
Qed.

Section E.
Variables c c' : cst.
Hypothesis E : eqc c c'.

Lemma eqc_present : forall w i, w < p_assoc p -> i < nblocks p -> present p c w i = present p c' w i.
Proof. intros. unfold present. rewrite (eq_v _ _ E), (eq_d _ _ E) by auto. auto. Qed.

Section R.
Variable r : creq.
Let I : a_idx p (cq_addr r) < nblocks p := a_idx_lt p W (cq_addr r).

Lemma eqc_pu : tl_pu p c r = tl_pu p c' r.
Proof.
  unfold tl_pu, pu_compare. cbn [negb andb].
  assert (F : forall l acc, (forall w, In w l -> w < p_assoc p) ->
    fold_left (pu_way p (a_tag p (cq_addr r)) (tl_ent p c r)) l acc = fold_left (pu_way p (a_tag p (cq_addr r)) (tl_ent p c' r)) l acc).
  { induction l as [|w l IH]; intros acc H; auto. cbn [fold_left].
    assert (Hw : w < p_assoc p) by (apply H; left; auto).
    replace (pu_way p (a_tag p (cq_addr r)) (tl_ent p c r) acc w) with (pu_way p (a_tag p (cq_addr r)) (tl_ent p c' r) acc w).
    { apply IH. intros. apply H. right; auto. }
    unfold pu_way, tl_ent, line_dirty.
    pose proof (eq_v _ _ E w _ Hw I) as V. pose proof (eq_d _ _ E w _ Hw I) as D. pose proof (eq_t _ _ E w _ Hw I) as T.
    unfold present, lval, ltag in *. rewrite <- V, <- D.
    destruct (te_val p (ct c w (a_idx p (cq_addr r)))) eqn:V1; cbn [andb negb orb] in *.
    - rewrite <- (T eq_refl). auto.
    - destruct (te_dty p (ct c w (a_idx p (cq_addr r))) =? 0); cbn [andb negb orb] in *; auto. rewrite <- (T eq_refl). auto. }
  apply F. intros w H. apply in_range in H. auto.
Qed.
Lemma eqc_hit : tl_hit p c r = tl_hit p c' r. Proof. unfold tl_hit. rewrite eqc_pu. auto. Qed.
Lemma eqc_inval : tl_inval p c r = tl_inval p c' r. Proof. unfold tl_inval. rewrite eqc_pu. auto. Qed.
Lemma eqc_hw : tl_hw p c r = tl_hw p c' r. Proof. unfold tl_hw. rewrite eqc_pu. auto. Qed.
Lemma eqc_rep : tl_rep p c r = tl_rep p c' r. Proof. apply (eq_r _ _ E); auto. Qed.
Lemma eqc_way : tl_way p c r = tl_way p c' r.
Proof. unfold tl_way. rewrite eqc_hit, eqc_inval, eqc_hw, eqc_rep. auto. Qed.

Hypothesis U : uniq p c.
Hypothesis R : forall i, i < nblocks p -> cr c i < p_assoc p.

Lemma hw_lt : tl_hw p c r < p_assoc p.
Proof. destruct (look_spec p W c r U); auto. destruct (wf_assoc p W); lia. Qed.
Lemma way_lt : tl_way p c r < p_assoc p.
Proof. unfold tl_way. pose proof hw_lt. destruct (tl_isamo r), (tl_hit p c r), (tl_inval p c r); auto. apply R; auto. Qed.

Lemma eqc_ld : forall w, w < p_assoc p -> line_dirty p true (tl_ent p c r w) = line_dirty p true (tl_ent p c' r w).
Proof. intros. unfold line_dirty, tl_ent. rewrite (eq_d _ _ E) by auto. auto. Qed.
Lemma eqc_evict : tl_evict p c r = tl_evict p c' r.
Proof.
  unfold tl_evict. rewrite <- eqc_hit, <- eqc_inval, <- eqc_hw, <- eqc_rep.
  rewrite <- !eqc_ld; auto; [apply R; auto | apply hw_lt].
Qed.
Lemma eqc_dirty : tl_dirty p c r = tl_dirty p c' r.
Proof.
  unfold tl_dirty. rewrite <- eqc_evict, <- eqc_way. unfold tl_ent. rewrite (eq_d _ _ E); auto. apply way_lt.
Qed.
Lemma eqc_rep' : tl_rep' p c r = tl_rep' p c' r.
Proof. unfold tl_rep'. rewrite eqc_hit, eqc_inval, eqc_hw, eqc_rep. auto. Qed.

Lemma eqc_line_req : forall w i opq, w < p_assoc p -> i < nblocks p -> present p c w i = true ->
  req_eq (mkMReq T_WRITE opq (line_addr p (mk_addr p (te_tag p (ct c w i)) i 0)) 0 (te_dty p (ct c w i)) (cd c (indexer p i w)))
         (mkMReq T_WRITE opq (line_addr p (mk_addr p (te_tag p (ct c' w i)) i 0)) 0 (te_dty p (ct c' w i)) (cd c' (indexer p i w))).
Proof.
  intros w i opq Hw Hi P. unfold req_eq. cbn [mq_type mq_opq mq_addr mq_len mq_mask mq_data].
  pose proof (eq_t _ _ E w i Hw Hi P) as T. unfold ltag in T. rewrite <- T, (eq_d _ _ E) by auto.
  repeat split; auto. apply bytes_eq. intros o O. apply (eq_b _ _ E w i o Hw Hi P O).
Qed.
Lemma ld_present : forall w i, line_dirty p true (ct c w i) = true -> present p c w i = true.
Proof. intros w i H. unfold line_dirty in H. unfold present. cbn [andb] in H. rewrite H. apply orb_true_r. Qed.

Lemma evict_present : tl_evict p c r = true -> present p c (tl_way p c r) (a_idx p (cq_addr r)) = true.
Proof.
  unfold tl_evict, tl_way, tl_ent. destruct (tl_isamo r).
  - intros H. apply andb_prop in H. destruct H. apply ld_present; auto.
  - destruct (tl_inval p c r), (tl_hit p c r); cbn [negb andb]; intros; try discriminate. apply ld_present; auto.
Qed.
Lemma eqc_evict_req : tl_evict p c r = true ->
  req_eq (evict_req p c r (tl_way p c r)) (evict_req p c' r (tl_way p c' r)).
Proof.
  intros EV. rewrite <- eqc_way. rewrite !evict_req_eq. apply (eqc_line_req (tl_way p c r) (a_idx p (cq_addr r))); auto.
  - apply way_lt.
  - apply evict_present; auto.
Qed.

Lemma eqc_flush : forall opq k, N.of_nat k <= total_lines p -> Forall2 req_eq (flush_reqs p c opq k) (flush_reqs p c' opq k).
Proof.
  intros opq. induction k as [|k IH]; intros K; cbn [flush_reqs]; [constructor|].
  pose proof (lway_lt p W (N.of_nat k)) as L1. pose proof (lidx_lt p W (N.of_nat k) ltac:(lia)) as L2.
  assert (ED : line_dirty p true (ct c (lway p (N.of_nat k)) (lidx p (N.of_nat k))) =
               line_dirty p true (ct c' (lway p (N.of_nat k)) (lidx p (N.of_nat k)))).
  { unfold line_dirty. rewrite (eq_d _ _ E); auto. }
  rewrite <- ED. apply Forall2_app; [|apply IH; lia].
  destruct (line_dirty p true (ct c (lway p (N.of_nat k)) (lidx p (N.of_nat k)))) eqn:D; constructor; auto.
  apply eqc_line_req; auto. apply ld_present; auto.
Qed.

Lemma eqc_reqs : Forall2 req_eq (tl_reqs p c r) (tl_reqs p c' r).
Proof.
  unfold tl_reqs. destruct (cq_type r =? T_INV); [constructor|].
  destruct (cq_type r =? T_FLUSH). { apply eqc_flush. lia. }
  rewrite <- eqc_evict, <- eqc_hit.
  assert (EV : Forall2 req_eq (if tl_evict p c r then [evict_req p c r (tl_way p c r)] else [])
                              (if tl_evict p c r then [evict_req p c' r (tl_way p c' r)] else [])).
  { destruct (tl_evict p c r) eqn:EV; constructor; auto. apply eqc_evict_req; auto. }
  destruct (tl_isamo r).
  - apply Forall2_app; auto. constructor; auto. unfold amo_req. rewrite eqc_dirty. apply req_eq_refl.
  - destruct (tl_hit p c r); [constructor|]. apply Forall2_app; auto. constructor; auto.
    unfold refill_req. rewrite eqc_dirty. apply req_eq_refl.
Qed.
End R.
End E.

Lemma eqc_sym : forall c c', eqc c c' -> eqc c' c.
Proof.
  intros c c' E. constructor; intros; symmetry; try apply E; auto; rewrite (eqc_present c c' E); auto.
Qed.

(** *** Memory *)
Definition meq (m m' : mem) : Prop := forall a, m a = m' a.

Lemma meq_exec : forall m m' q q', meq m m' -> req_eq q q' ->
  meq (fst (mem_exec p m q)) (fst (mem_exec p m' q')) /\
  (mq_type q <> T_WRITE -> mq_data q = mq_data q' -> snd (mem_exec p m q) = snd (mem_exec p m' q')).
Proof.
  intros m m' q q' M (E1 & E2 & E3 & E4 & E5 & E6).
  assert (RD : forall a n, rd_bytes m a n = rd_bytes m' a n).
  { intros. apply rd_ext. intros. rewrite M. auto. }
  unfold mem_exec. rewrite <- E1, <- E2, <- E3, <- E4, <- E5.
  destruct (N.eqb_spec (mq_type q) T_READ); [split; cbn [fst snd]; auto; intros; rewrite RD; auto|].
  destruct (N.eqb_spec (mq_type q) T_WRITE); [split; [|congruence]|]; cbn [fst snd].
  - intros a. rewrite !wr_masked_spec, M. destruct (_ && _ && _) eqn:B; auto.
    apply eq_bytes; auto. apply andb_prop in B. destruct B as [B _]. apply andb_prop in B. destruct B as [B1 B2].
    apply N.leb_le in B1. apply N.ltb_lt in B2. rewrite off_words by auto. rewrite <- (clw_words p). lia.
  - assert (S : slice (mq_data q) 0 32 = slice (mq_data q') 0 32).
    { unfold slice. rewrite !N.shiftr_0_r. change (32 - 0) with 32. pose proof (wf_dc p W) as C. assert (C2 : 32 <= p_dbw p) by (destruct (wf_dbw p W) as [D|[D|D]]; rewrite D; lia).
      apply N.bits_inj; intro i. rewrite !testbit_trunc. destruct (N.ltb_spec i 32); cbn [andb]; auto.
      apply (f_equal (fun z => N.testbit z i)) in E6. rewrite !testbit_trunc in E6.
      destruct (N.ltb_spec i (p_clw p)); cbn [andb] in *; auto. lia. }
    rewrite RD, S. split; [|auto]. intros a. unfold wr_bytes. destruct (_ && _); auto.
Qed.

(** *** A whole request *)
Lemma wben_bytes : forall L L' data off len o, gb L o = gb L' o ->
  gb (mwrite L data (wben_req p off len)) o = gb (mwrite L' data (wben_req p off len)) o.
Proof.
  intros L L' data off len o E. apply gb_ext. intros i I. rewrite !testbit_mwrite.
  apply (f_equal (fun z => N.testbit z i)) in E. rewrite !testbit_gb in E. rewrite (proj2 (N.ltb_lt _ _) I) in E. cbn [andb] in E.
  rewrite E. auto.
Qed.

Lemma eqc_fin_rw : forall c c' r d, eqc c c' -> uniq p c -> (forall i, i < nblocks p -> cr c i < p_assoc p) ->
  wf_req p r -> rw_req r = true -> eqc (fst (tl_fin p c r d)) (fst (tl_fin p c' r d)).
Proof.
  intros c c' r d E U R WF RW.
  pose proof (eqc_hit c c' E r) as EH. pose proof (eqc_way c c' E r) as EW.
  pose proof (eqc_dirty c c' E r U R) as ED. pose proof (eqc_rep' c c' E r) as ER.
  pose proof (eqc_hw c c' E r) as EHW.
  assert (U' : uniq p c').
  { intros w w' i H1 H2 H3 P1 P2 T. rewrite <- (eqc_present c c' E) in P1, P2 by auto.
    rewrite <- !(eq_t _ _ E) in T by auto. eauto. }
  assert (R' : forall i, i < nblocks p -> cr c' i < p_assoc p) by (intros; rewrite <- (eq_r _ _ E) by auto; auto).
  pose proof (meta_rw p W c r d WF RW U R) as M. pose proof (meta_rw p W c' r d WF RW U' R') as M'.
  cbv zeta in M, M'. rewrite <- EW in M'.
  set (w0 := tl_way p c r) in *. set (i0 := a_idx p (cq_addr r)) in *.
  assert (W0 : w0 < p_assoc p) by (apply way_lt; auto).
  assert (I0 : i0 < nblocks p) by (apply a_idx_lt; auto).
  destruct M as (M1 & M2 & M3 & M4 & M5 & _). destruct M' as (M1' & M2' & M3' & M4' & M5' & _).
  assert (DD : (if tl_hit p c r then te_dty p (ct c w0 i0) else tl_dirty p c r) =
               (if tl_hit p c' r then te_dty p (ct c' w0 i0) else tl_dirty p c' r)).
  { rewrite <- EH, ED. destruct (tl_hit p c r); auto. apply (eq_d _ _ E); auto. }
  assert (EB : forall w i o, w < p_assoc p -> i < nblocks p -> present p (fst (tl_fin p c r d)) w i = true -> o < 2 ^ offw p ->
     lbyte p (fst (tl_fin p c r d)) w i o = lbyte p (fst (tl_fin p c' r d)) w i o).
  { intros w i o Hw Hi P O. destruct (rw_type r RW) as (T1 & T2 & T3).
    destruct (same_line w i w0 i0) as [[-> ->] | NE].
    - unfold tl_fin. unfold tl_isamo. rewrite T1, T2, T3, <- EH.
      destruct (tl_hit p c r) eqn:H; cbn [fst]; unfold lbyte; cbn [cd].
      + assert (HW : tl_hw p c r = w0). { unfold w0, tl_way, tl_isamo. rewrite T1, H. auto. }
        assert (PR : present p c w0 i0 = true).
        { apply lval_present. rewrite <- HW. pose proof (look_spec p W c r U) as L. rewrite H in L. inversion L; auto. }
        rewrite <- EHW, HW. unfold tl_wdat. pose proof (eq_b _ _ E w0 i0 o W0 I0 PR O) as B. unfold lbyte in B.
        destruct (cq_type r =? T_WRITE); auto.
        change (tl_row p r w0) with (indexer p i0 w0). rewrite !upd_same. apply wben_bytes. auto.
      + rewrite <- EW. fold w0.
        assert (B1 : gb (tl_refill_dat p c r (cd c) d (indexer p i0 w0)) o = gb (tl_refill_dat p c' r (cd c') d (indexer p i0 w0)) o).
        { unfold tl_refill_dat. rewrite <- EW. fold w0. change (tl_row p r w0) with (indexer p i0 w0). rewrite !upd_same.
          rewrite !(refill_bytes p W) by auto. rewrite <- ED. destruct (N.testbit (tl_dirty p c r) (o / 4)) eqn:B; auto.
          assert (PR : present p c w0 i0 = true).
          { unfold tl_dirty in B. destruct (tl_evict p c r); [rewrite N.bits_0 in B; discriminate|].
            eapply (ldty_present p c w0 i0). exact B. }
          apply (eq_b _ _ E w0 i0 o W0 I0 PR O). }
        unfold tl_wdat. destruct (cq_type r =? T_WRITE); auto.
        change (tl_row p r w0) with (indexer p i0 w0). rewrite !upd_same. apply wben_bytes. auto.
    - assert (PR : present p c w i = true).
      { unfold present, lval in P |- *. rewrite M1 in P by auto. auto. }
      pose proof (eq_b _ _ E w i o Hw Hi PR O) as B. unfold lbyte in B |- *.
      assert (D1 : forall c1, tl_way p c1 r = w0 -> tl_hit p c1 r = tl_hit p c r -> (tl_hit p c r = true -> tl_hw p c1 r = w0) ->
        gb (cd (fst (tl_fin p c1 r d)) (indexer p i w)) o = gb (cd c1 (indexer p i w)) o).
      { intros c1 E1 E2 E3. unfold tl_fin, tl_isamo. rewrite T1, T2, T3, E2.
        destruct (tl_hit p c r); cbn [fst cd].
        - rewrite (E3 eq_refl). unfold tl_wdat. destruct (cq_type r =? T_WRITE); auto. apply row_other; auto.
        - rewrite E1. unfold tl_wdat, tl_refill_dat. rewrite E1. change (tl_row p r w0) with (indexer p i0 w0).
          destruct (cq_type r =? T_WRITE); [rewrite (row_other p W) by auto|]; apply row_other; auto. }
      assert (HW : tl_hit p c r = true -> tl_hw p c r = w0).
      { intros H. unfold w0, tl_way, tl_isamo. rewrite T1, H. auto. }
      rewrite !D1; auto. rewrite <- EHW. auto. }
  constructor; auto.
  - intros i Hi. rewrite M5, M5', <- ER. destruct (N.eq_dec i i0) as [-> | NE]; [rewrite !upd_same; auto|].
    rewrite !upd_other by auto. apply E; auto.
  - intros w i Hw Hi. destruct (same_line w i w0 i0) as [[-> ->] | NE]; [congruence|].
    unfold lval. rewrite M1, M1' by auto. apply (eq_v _ _ E); auto.
  - intros w i Hw Hi. destruct (same_line w i w0 i0) as [[-> ->] | NE]; [rewrite M4, M4', DD; auto|].
    rewrite M1, M1' by auto. apply (eq_d _ _ E); auto.
  - intros w i Hw Hi P. destruct (same_line w i w0 i0) as [[-> ->] | NE]; [congruence|].
    unfold ltag. rewrite M1, M1' by auto. apply (eq_t _ _ E); auto.
    unfold present, lval in P |- *. rewrite M1 in P by auto. auto.
Qed.

Lemma eqc_fin_amo : forall c c' r d, eqc c c' -> uniq p c -> (forall i, i < nblocks p -> cr c i < p_assoc p) ->
  wf_amo p r -> eqc (fst (tl_fin p c r d)) (fst (tl_fin p c' r d)).
Proof.
  intros c c' r d E U R WF.
  pose proof (eqc_hit c c' E r) as EH. pose proof (eqc_inval c c' E r) as EI. pose proof (eqc_hw c c' E r) as EW.
  pose proof (eqc_rep' c c' E r) as ER.
  pose proof (meta_amo p c r d WF) as M. pose proof (meta_amo p c' r d WF) as M'.
  cbv zeta in M, M'. rewrite <- EW, <- EH, <- EI in M'.
  assert (CD : forall c1, cd (fst (tl_fin p c1 r d)) = cd c1).
  { intros. destruct (amo_type p r WF) as (T1 & T2 & T3 & T4 & _). unfold tl_fin, tl_isamo. rewrite T2, T3, T4. auto. }
  set (w0 := tl_hw p c r) in *. set (i0 := a_idx p (cq_addr r)) in *.
  destruct M as (M1 & M2 & _). destruct M' as (M1' & M2' & _).
  destruct (tl_hit p c r || tl_inval p c r).
  - destruct M2 as (V & D & C). destruct M2' as (V' & D' & C').
    assert (NP : present p (fst (tl_fin p c r d)) w0 i0 = false) by (unfold present; rewrite V, D; auto).
    constructor.
    + intros i Hi. rewrite C, C', <- ER. destruct (N.eq_dec i i0) as [-> | NE]; [rewrite !upd_same; auto|].
      rewrite !upd_other by auto. apply E; auto.
    + intros w i Hw Hi. destruct (same_line w i w0 i0) as [[-> ->] | NE]; [congruence|].
      unfold lval. rewrite M1, M1' by auto. apply (eq_v _ _ E); auto.
    + intros w i Hw Hi. destruct (same_line w i w0 i0) as [[-> ->] | NE]; [congruence|].
      rewrite M1, M1' by auto. apply (eq_d _ _ E); auto.
    + intros w i Hw Hi P. destruct (same_line w i w0 i0) as [[-> ->] | NE]; [congruence|].
      unfold ltag. rewrite M1, M1' by auto. apply (eq_t _ _ E); auto.
      unfold present, lval in P |- *. rewrite M1 in P by auto. auto.
    + intros w i o Hw Hi P O. destruct (same_line w i w0 i0) as [[-> ->] | NE]; [congruence|].
      unfold lbyte. rewrite !CD. apply (eq_b _ _ E); auto.
      unfold present, lval in P |- *. rewrite M1 in P by auto. auto.
  - rewrite M2, M2'. destruct c, c'. exact E.
Qed.

Lemma eqc_map : forall f c c', eqc c c' -> 
  (forall e e', te_val p e = te_val p e' -> te_dty p e = te_dty p e' ->
     te_val p (f e) = te_val p (f e') /\ te_dty p (f e) = te_dty p (f e')) ->
  (forall e, te_tag p (f e) = te_tag p e) ->
  (forall e, te_val p (f e) || negb (te_dty p (f e) =? 0) = true -> te_val p e || negb (te_dty p e =? 0) = true) ->
  eqc (mkC (tmap p f (ct c)) (cd c) (cr c)) (mkC (tmap p f (ct c')) (cd c') (cr c')).
Proof.
  intros f c c' E F1 F2 F3.
  assert (X : forall w i, w < p_assoc p -> i < nblocks p -> 
    te_val p (f (ct c w i)) = te_val p (f (ct c' w i)) /\ te_dty p (f (ct c w i)) = te_dty p (f (ct c' w i))).
  { intros. apply F1; [apply (eq_v _ _ E) | apply (eq_d _ _ E)]; auto. }
  constructor; cbn [cr].
  - apply E.
  - intros w i Hw Hi. unfold lval. cbn [ct]. rewrite !(ct_tmap p) by auto. apply X; auto.
  - intros w i Hw Hi. cbn [ct]. rewrite !(ct_tmap p) by auto. apply X; auto.
  - intros w i Hw Hi P. unfold present, lval, ltag in P |- *. cbn [ct] in P |- *. rewrite !(ct_tmap p) in P by auto.
    rewrite !(ct_tmap p), !F2 by auto. apply (eq_t _ _ E); auto. apply F3. auto.
  - intros w i o Hw Hi P O. unfold present, lval, lbyte in P |- *. cbn [ct cd] in P |- *. rewrite !(ct_tmap p) in P by auto.
    apply (eq_b _ _ E); auto. apply F3. auto.
Qed.

Lemma eqc_fin : forall c c' r d d', eqc c c' -> uniq p c -> (forall i, i < nblocks p -> cr c i < p_assoc p) ->
  wf_req p r -> (cq_type r <> T_FLUSH -> d = d') -> eqc (fst (tl_fin p c r d)) (fst (tl_fin p c' r d')).
Proof.
  intros c c' r d d' E U R WF D.
  destruct (rw_req r) eqn:RW.
  { destruct (rw_type r RW) as (_ & _ & T). apply N.eqb_neq in T. rewrite <- (D T). apply eqc_fin_rw; auto. }
  destruct (not_rw p r WF RW) as [A | [A | A]].
  - destruct (amo_type p r A) as (_ & _ & _ & T & _). apply N.eqb_neq in T. rewrite <- (D T). apply eqc_fin_amo; auto.
  - unfold tl_fin. rewrite A. cbn [fst N.eqb]. change (T_INV =? T_INV) with true. cbn [fst].
    apply eqc_map; auto.
    + intros e e' _ E2. destruct (te_inv p e) as (V & DT & _). destruct (te_inv p e') as (V' & DT' & _). split; congruence.
    + intros e. apply te_inv; auto.
    + intros e. destruct (te_inv p e) as (V & DT & _). rewrite V, DT. cbn [orb]. intros ->. apply orb_true_r.
  - unfold tl_fin. rewrite A. change (T_FLUSH =? T_INV) with false. change (T_FLUSH =? T_FLUSH) with true. cbn [fst].
    apply eqc_map; auto.
    + intros e e' E1 _. destruct (te_clean p e) as (V & DT & _). destruct (te_clean p e') as (V' & DT' & _). split; congruence.
    + intros e. apply te_clean; auto.
    + intros e. destruct (te_clean p e) as (V & DT & _). rewrite V, DT. cbn [N.eqb negb]. rewrite orb_false_r. intros ->. auto.
Qed.

Lemma meq_run : forall Q Q' m m', Forall2 req_eq Q Q' -> meq m m' -> meq (fst (mem_run p m Q)) (fst (mem_run p m' Q')).
Proof.
  intros Q Q' m m' F. revert m m'. induction F as [|q q' Q Q' E F IH]; intros m m' M; auto.
  cbn [mem_run]. destruct (meq_exec m m' q q' M E) as [M1 _].
  destruct (mem_exec p m q) as [m1 x], (mem_exec p m' q') as [m1' x']. cbn [fst] in M1. specialize (IH _ _ M1).
  destruct (mem_run p m1 Q), (mem_run p m1' Q'). auto.
Qed.

Lemma last_data_one : forall m Q q, last_data (snd (mem_run p m (Q ++ [q]))) = mr_data (snd (mem_exec p (fst (mem_run p m Q)) q)).
Proof.
  intros. rewrite mem_run_app. cbn [snd]. unfold last_data. rewrite fold_left_app. cbn [mem_run].
  destruct (mem_exec p (fst (mem_run p m Q)) q). auto.
Qed.

Lemma eqc_step : forall c c' m m' r, eqc c c' -> meq m m' -> uniq p c -> (forall i, i < nblocks p -> cr c i < p_assoc p) -> wf_req p r ->
  let Q := tl_reqs p c r in let Q' := tl_reqs p c' r in
  Forall2 req_eq Q Q' /\ meq (fst (mem_run p m Q)) (fst (mem_run p m' Q')) /\
  eqc (fst (tl_fin p c r (last_data (snd (mem_run p m Q))))) (fst (tl_fin p c' r (last_data (snd (mem_run p m' Q'))))).
Proof.
  intros c c' m m' r E M U R WF Q Q'. pose proof (eqc_reqs c c' E r U R) as F.
  split; auto. split. { apply meq_run; auto. }
  apply eqc_fin; auto. intros NF. unfold Q, Q' in *. clear Q Q'. unfold tl_reqs in *.
  destruct (cq_type r =? T_INV); auto. apply N.eqb_neq in NF. rewrite NF in *.
  assert (MR : forall q q', req_eq q q' -> mq_type q <> T_WRITE -> mq_data q = mq_data q' ->
    Forall2 req_eq (if tl_evict p c r then [evict_req p c r (tl_way p c r)] else [])
                   (if tl_evict p c' r then [evict_req p c' r (tl_way p c' r)] else []) ->
    last_data (snd (mem_run p m ((if tl_evict p c r then [evict_req p c r (tl_way p c r)] else []) ++ [q]))) =
    last_data (snd (mem_run p m' ((if tl_evict p c' r then [evict_req p c' r (tl_way p c' r)] else []) ++ [q'])))).
  { intros q q' E1 E2 E3 F1. rewrite !last_data_one. f_equal. apply meq_exec; auto. apply meq_run; auto. }
  assert (FE : Forall2 req_eq (if tl_evict p c r then [evict_req p c r (tl_way p c r)] else [])
                   (if tl_evict p c' r then [evict_req p c' r (tl_way p c' r)] else [])).
  { rewrite <- (eqc_evict c c' E r U R). destruct (tl_evict p c r) eqn:EV; constructor; auto. apply eqc_evict_req; auto. }
  destruct (tl_isamo r) eqn:IA.
  - apply MR; auto; unfold amo_req; rewrite <- ?(eqc_dirty c c' E r U R); auto using req_eq_refl; cbn [mq_type].
    intros T. unfold tl_isamo in IA. rewrite T in IA. discriminate.
  - rewrite <- (eqc_hit c c' E r) in *. destruct (tl_hit p c r); auto.
    apply MR; auto; unfold refill_req; rewrite <- ?(eqc_dirty c c' E r U R); auto using req_eq_refl; cbn [mq_type]. discriminate.
Qed.

(** *** Histories *)
Definition qreq_eq (e e' : creq * mreq) : Prop := fst e = fst e' /\ req_eq (snd e) (snd e').

Lemma hist_det : forall m0 A c m Y Q, hist p m0 A c m Y Q -> forall c' m' Y' Q', hist p m0 A c' m' Y' Q' ->
  eqc c c' /\ meq m m' /\ Forall2 qreq_eq Q Q'.
Proof.
  intros m0 A c m Y Q H. induction H as [c C|A c m Y Q r H IH WF]; intros c' m' Y' Q' H'.
  - inversion H'; subst.
    + destruct C as [C1 C2]. match goal with Z : clean_start p c' |- _ => destruct Z as [D1 D2] end.
      split; [|split; [intros a; auto | constructor]].
      assert (NP : forall w i, w < p_assoc p -> i < nblocks p -> present p c w i = true -> False).
      { intros w i Hw Hi P. destruct (C1 w i Hw Hi) as [V D]. unfold present, lval in P. rewrite V, D in P. discriminate. }
      constructor; intros.
      * rewrite C2, D2. auto.
      * unfold lval. destruct (C1 w i), (D1 w i); congruence.
      * destruct (C1 w i), (D1 w i); congruence.
      * exfalso; eauto.
      * exfalso; eauto.
    + destruct A; discriminate.
  - inversion H' as [|A' c1 m1 Y1 Q1 r' H1 WF1 EA]; subst. { destruct A; discriminate. }
    apply app_inj_tail in EA. destruct EA as [-> ->].
    destruct (IH _ _ _ _ H1) as (E & M & F).
    destruct (hist_flat p W m0 A c m Y Q H) as (CI & _).
    destruct (eqc_step c c1 m m1 r E M (ci_uniq p c m CI) (ci_rep p c m CI) WF) as (F1 & M1 & E1).
    split; [auto|]. split; [auto|].
    apply Forall2_app; auto. clear - F1. induction F1; constructor; auto. split; auto.
Qed.

Lemma hist_prefix : forall m0 B A c m Y Q, hist p m0 (A ++ B) c m Y Q ->
  exists c1 m1 Y1 Q1 Q2, hist p m0 A c1 m1 Y1 Q1 /\ Q = Q1 ++ Q2.
Proof.
  intros m0 B. induction B as [|b B IH] using rev_ind; intros A c m Y Q H.
  - rewrite app_nil_r in H. exists c, m, Y, Q, []. rewrite app_nil_r. auto.
  - rewrite app_assoc in H. inversion H as [|A' c1 m1 Y1 Q1 r' H1 WF1 EA]; subst. { destruct (A ++ B); discriminate. }
    apply app_inj_tail in EA. destruct EA as [-> ->].
    destruct (IH _ _ _ _ _ H1) as (c2 & m2 & Y2 & Q2 & Q3 & H2 & ->).
    exists c2, m2, Y2, Q2, (Q3 ++ map (pair b) (tl_reqs p c1 b)). rewrite app_assoc. auto.
Qed.

(** Everything a run sends is a prefix of what a completed history of its
    accepted requests sends. *)
Lemma sys_full : forall s0 is m0 m rq rs, sys_run p s0 is m0 m rq rs ->
  let tr := trace_of p s0 is in
  exists c m1 Y Q, hist p m0 (accepted tr) c m1 Y Q /\ (exists Q1 Q2, Q = Q1 ++ Q2 /\ Forall2 qmatch Q1 (memreqs tr) /\
    (length (responses tr) = length (accepted tr) -> Q2 = [] /\ m = m1 /\ rq = [])) /\
    exists rest, Y = responses tr ++ rest.
Proof.
  intros s0 is m0 m rq rs R tr. destruct (sys_state p W is s0 m0 m rq rs R) as [a ST].
  destruct (stok_J _ _ _ _ _ _ _ _ _ ST) as [JJ _]. fold tr in JJ.
  destruct (J_hist p _ _ _ _ _ _ _ _ JJ) as (A0 & c & mb & Q & pd & H & _ & _ & [(EA & _ & ER & _ & EM & F) | X]).
  - rewrite EA. exists c, mb, (responses tr ++ pd), Q. split; auto. split; [exists Q, []; rewrite app_nil_r; auto | eauto].
  - destruct X as (r & ex & qs & todo & out & l & EA & WF & _ & ET & _ & _ & _ & _ & F).
    pose proof (hist_length p _ _ _ _ _ _ H) as HL. rewrite app_length in HL.
    rewrite EA. do 4 eexists. split; [apply h_step; eauto|]. split.
    + exists (Q ++ map (pair r) (ex ++ qs)), (map (pair r) todo). rewrite ET. split; [|split; [auto|]].
      * rewrite <- app_assoc. f_equal. rewrite <- map_app. rewrite <- app_assoc. auto.
      * rewrite app_length. cbn [length]. lia.
    + rewrite <- app_assoc. eauto.
Qed.

Lemma hist_resp_det : forall m0 A c m Y Q c' m' Y' Q', hist p m0 A c m Y Q -> hist p m0 A c' m' Y' Q' -> Y = Y'.
Proof.
  intros m0 A c m Y Q c' m' Y' Q' H H'.
  assert (F : forall c m Y Q, hist p m0 A c m Y Q -> map cr_data Y = flat_data p m0 A /\
    map echo_y Y = map echo A /\ map cr_test Y = lru_tests p lru_empty A).
  { intros c1 m1 Y1 Q1 H1. destruct (hist_flat p W _ _ _ _ _ _ H1) as (_ & _ & D).
    split; auto. split; [eapply hist_echo; eauto|].
    destruct (hist_traffic p W _ _ _ _ _ _ H1 (map snd Q1)) as (G & _ & _ & _ & _ & _ & T); auto.
    clear. induction Q1; constructor; auto. repeat split. }
  destruct (F _ _ _ _ H) as (D1 & E1 & T1). destruct (F _ _ _ _ H') as (D2 & E2 & T2). clear F.
  rewrite <- D2 in D1. rewrite <- E2 in E1. rewrite <- T2 in T1. clear - D1 E1 T1.
  revert Y' D1 E1 T1. induction Y as [|y Y IH]; intros [|y' Y'] D1 E1 T1; try discriminate; auto.
  cbn [map] in *. inversion D1. inversion E1. inversion T1. f_equal; [|apply IH; auto].
  destruct y, y'. unfold echo_y in *. cbn in *. congruence.
Qed.
Lemma hist_resp_prefix : forall m0 B A c m Y Q, hist p m0 (A ++ B) c m Y Q ->
  exists c1 m1 Y1 Q1 Y2, hist p m0 A c1 m1 Y1 Q1 /\ Y = Y1 ++ Y2.
Proof.
  intros m0 B. induction B as [|b B IH] using rev_ind; intros A c m Y Q H.
  - rewrite app_nil_r in H. exists c, m, Y, Q, []. rewrite app_nil_r. auto.
  - rewrite app_assoc in H. inversion H as [|A' c1 m1 Y1 Q1 r' H1 WF1 EA]; subst. { destruct (A ++ B); discriminate. }
    apply app_inj_tail in EA. destruct EA as [-> ->].
    destruct (IH _ _ _ _ _ H1) as (c2 & m2 & Y2 & Q2 & Y3 & H2 & ->).
    do 5 eexists. split; [exact H2|]. rewrite <- app_assoc. eauto.
Qed.

(** One list extends the other. *)
Definition comparable {A} (l l' : list A) : Prop := (exists t, l = l' ++ t) \/ (exists t, l' = l ++ t).
Lemma prefixes : forall A (l l' t t' : list A), l ++ t = l' ++ t' -> comparable l l'.
Proof.
  induction l as [|x l IH]; intros [|y l'] t t' E.
  - left; exists []; auto.
  - right; exists (y :: l'); auto.
  - left; exists (x :: l); auto.
  - cbn in E. inversion E; subst. destruct (IH _ _ _ H1) as [[u ->] | [u ->]]; [left | right]; exists u; auto.
Qed.

(** A memory request without the opaque field of write-backs (for FLUSH it is
    not determined) and without data bits beyond the port. *)
Definition strip (q : mreq) : mreq :=
  mkMReq (mq_type q) (if mq_type q =? T_WRITE then 0 else mq_opq q) (mq_addr q) (mq_len q) (mq_mask q) (trunc (p_clw p) (mq_data q)).
Lemma strip_eq : forall q q', req_eq q q' -> strip q = strip q'.
Proof. intros q q' (E1 & E2 & E3 & E4 & E5 & E6). unfold strip. rewrite E1, E2, E3, E4, E5, E6. auto. Qed.
Lemma hist_types : forall m0 A c m Y Q, hist p m0 A c m Y Q ->
  Forall (fun e => cq_type (fst e) = T_FLUSH -> mq_type (snd e) = T_WRITE) Q.
Proof.
  induction 1; [constructor|]. apply Forall_app. split; auto. apply Forall_forall. intros [r' e] I T.
  apply in_map_iff in I. destruct I as (e' & E & I). inversion E; subst. cbn [fst snd] in *.
  unfold tl_reqs in I. rewrite T in I. change (T_FLUSH =? T_INV) with false in I. change (T_FLUSH =? T_FLUSH) with true in I.
  cbv iota in I. apply flush_shape in I. destruct I as (j & _ & -> & _). auto.
Qed.
Lemma strip_match : forall Q S, Forall (fun e => cq_type (fst e) = T_FLUSH -> mq_type (snd e) = T_WRITE) Q ->
  Forall2 qmatch Q S -> map strip S = map (fun e => strip (snd e)) Q.
Proof.
  intros Q S FF F. induction F as [|e q Q S M F IH]; auto. inversion FF; subst. cbn [map]. f_equal; auto.
  destruct M as (E1 & E2 & E3 & E4 & E5 & E6). unfold strip. rewrite <- E1, <- E2, <- E3, <- E4, <- E5. f_equal.
  destruct (N.eqb_spec (mq_type (snd e)) T_WRITE); auto. symmetry. apply E6. intros T. auto.
Qed.
Lemma strip_qeq : forall Q Q', Forall2 qreq_eq Q Q' -> map (fun e => strip (snd e)) Q = map (fun e => strip (snd e)) Q'.
Proof. intros Q Q' F. induction F as [|e e' Q Q' M F IH]; auto. cbn [map]. f_equal; auto. apply strip_eq. apply M. Qed.

Theorem sys_timing : forall s0 is m0 m rq rs s0' is' m' rq' rs' more,
  sys_run p s0 is m0 m rq rs -> sys_run p s0' is' m0 m' rq' rs' ->
  let tr := trace_of p s0 is in let tr' := trace_of p s0' is' in
  accepted tr' = accepted tr ++ more ->
  comparable (responses tr) (responses tr') /\ comparable (map strip (memreqs tr)) (map strip (memreqs tr')).
Proof.
  intros s0 is m0 m rq rs s0' is' m' rq' rs' more R R' tr tr' EA.
  destruct (sys_full _ _ _ _ _ _ R) as (c & m1 & Y & Q & H & (Q1 & Q2 & EQ & F & _) & (t & EY)).
  destruct (sys_full _ _ _ _ _ _ R') as (c' & m1' & Y' & Q' & H' & (Q1' & Q2' & EQ' & F' & _) & (t' & EY')).
  fold tr in H, F, EY. fold tr' in H', F', EY'. pose proof (hist_types _ _ _ _ _ _ H) as T. pose proof (hist_types _ _ _ _ _ _ H') as T'.
  rewrite EA in H'. split.
  - destruct (hist_resp_prefix _ _ _ _ _ _ _ H') as (c2 & m2 & Y2 & Q3 & Y3 & H2 & EE).
    rewrite <- (hist_resp_det _ _ _ _ _ _ _ _ _ _ H H2) in EE. rewrite EY, EY', <- app_assoc in EE.
    symmetry in EE. eapply prefixes; eauto.
  - destruct (hist_prefix _ _ _ _ _ _ _ H') as (c2 & m2 & Y2 & Q3 & Q4 & H2 & EE).
    destruct (hist_det _ _ _ _ _ _ H _ _ _ _ H2) as (_ & _ & QE). apply strip_qeq in QE.
    rewrite EQ in T. rewrite EQ' in T'. apply Forall_app in T, T'.
    rewrite (strip_match _ _ (proj1 T) F), (strip_match _ _ (proj1 T') F').
    rewrite EQ, map_app in QE. rewrite EQ' in EE. apply (f_equal (map (fun e => strip (snd e)))) in EE.
    rewrite !map_app, <- QE, <- app_assoc in EE. symmetry in EE. eapply prefixes; eauto.
Qed.

Theorem sys_timing_done : forall s0 is m0 m rq rs s0' is' m' rq' rs',
  sys_run p s0 is m0 m rq rs -> sys_run p s0' is' m0 m' rq' rs' ->
  let tr := trace_of p s0 is in let tr' := trace_of p s0' is' in
  accepted tr' = accepted tr -> length (responses tr) = length (accepted tr) -> length (responses tr') = length (accepted tr') ->
  responses tr = responses tr' /\ map strip (memreqs tr) = map strip (memreqs tr') /\ forall a, m a = m' a.
Proof.
  intros s0 is m0 m rq rs s0' is' m' rq' rs' R R' tr tr' EA L L'.
  destruct (sys_full _ _ _ _ _ _ R) as (c & m1 & Y & Q & H & (Q1 & Q2 & EQ & F & D) & (t & EY)).
  destruct (sys_full _ _ _ _ _ _ R') as (c' & m1' & Y' & Q' & H' & (Q1' & Q2' & EQ' & F' & D') & (t' & EY')).
  fold tr in H, F, EY, D. fold tr' in H', F', EY', D'. pose proof (hist_types _ _ _ _ _ _ H) as T. pose proof (hist_types _ _ _ _ _ _ H') as T'.
  destruct (D L) as (D1 & D2 & _). destruct (D' L') as (D1' & D2' & _).
  rewrite EA in H'. destruct (hist_det _ _ _ _ _ _ H _ _ _ _ H') as (_ & M & QE). apply strip_qeq in QE.
  pose proof (hist_resp_det _ _ _ _ _ _ _ _ _ _ H H') as EE.
  pose proof (hist_length p _ _ _ _ _ _ H) as HL. pose proof (hist_length p _ _ _ _ _ _ H') as HL'.
  rewrite EY, app_length in HL. rewrite EY', app_length in HL'. rewrite EA in L'.
  assert (t = []) by (destruct t; auto; cbn in HL; lia). assert (t' = []) by (destruct t'; auto; cbn in HL'; lia).
  subst. rewrite !app_nil_r in *. split; auto. split; auto.
  rewrite (strip_match _ _ T F), (strip_match _ _ T' F'). auto.
Qed.
End T.
