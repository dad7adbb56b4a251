(** Cycle-exact behaviour of hits (C38, C41). *)
From Coq Require Import NArith PeanoNat List Bool Lia.
From Verif Require Import Bits Params Msg Units Rtl Mem Tl ParamsProofs RtlLemmas RefineInv RefineStall RefineReq RefineAdv1 RefineAdv2 RefineAdv3
  RefineProofs Spec UnitProofs ViewDefs ViewOps ViewProofs System SysProofs SysFacts Facts1 Facts2 Traffic MetaProofs PendProofs TrafProofs Facts3.
Import ListNotations.
Open Scope N_scope.

Section L.
Variable p : params.
Hypothesis W : wf_params p.

(** *** The only phase a hit is ever in *)
Lemma hit_phase : forall s a u, phase p s a -> a_cur a = Some u -> rw_req (u_req u) = true ->
  tl_hit p (a_c a) (u_req u) = true -> ph_req p s a (u_req u).
Proof.
  intros s a u P C RW H. destruct (rw_type _ RW) as (NA & NI & NF).
  assert (IR : RefineInv.is_rw (cq_type (u_req u)) = true) by exact RW.
  destruct P as [P | r P | r P | r P | r P | r k P | r P | r P | r k P | r k P | r k P].
  - rewrite (id_cur _ _ _ P) in C. discriminate.
  - rewrite (rq_cur _ _ _ _ P) in C. inversion C; subst u. auto.
  - rewrite (ev_cur _ _ _ _ P) in C. inversion C; subst u. cbn [u_req] in *.
    pose proof (ev_evict _ _ _ _ P) as E. unfold tl_evict, tl_isamo in E. rewrite NA, H in E. cbn [negb andb] in E.
    rewrite andb_false_r in E. discriminate.
  - assert (r = u_req u).
    { destruct (wt_cur _ _ _ _ P) as [(_ & _ & _ & out & l & AK & E) | [(_ & _ & out & q & l & AK & NW & E) | (_ & _ & E)]];
        rewrite E in C; inversion C; auto. }
    subst r. rewrite (wt_miss _ _ _ _ P IR) in H. discriminate.
  - destruct (rf_cur _ _ _ _ P) as (l & E & _). rewrite E in C. inversion C; subst u. cbn [u_req] in *.
    rewrite (rf_miss _ _ _ _ P) in H. discriminate.
  - rewrite (iv_cur _ _ _ _ _ P) in C. inversion C; subst u. cbn [u_req] in *. rewrite (iv_ty _ _ _ _ _ P) in NI. discriminate.
  - rewrite (il_cur _ _ _ _ P) in C. inversion C; subst u. cbn [u_req] in *. rewrite (il_ty _ _ _ _ P) in NI. discriminate.
  - rewrite (fs_cur _ _ _ _ P) in C. inversion C; subst u. cbn [u_req] in *. rewrite (fs_ty _ _ _ _ P) in NF. discriminate.
  - destruct (fr_cur _ _ _ _ _ P) as (l & E). rewrite E in C. inversion C; subst u. cbn [u_req] in *.
    rewrite (fl_ty _ _ _ _ _ _ (fr_c _ _ _ _ _ P)) in NF. discriminate.
  - assert (r = u_req u).
    { destruct (fw_cur _ _ _ _ _ P) as [(o & e & l & _ & _ & _ & _ & E & _) | [(q' & l & T2 & _ & T & E & _) | (l & _ & _ & _ & E & _)]];
        rewrite E in C; inversion C; auto. }
    subst r. rewrite (fl_ty _ _ _ _ _ _ (fw_c _ _ _ _ _ P)) in NF. discriminate.
  - destruct (fx_cur _ _ _ _ _ P) as (l & E). rewrite E in C. inversion C; subst u. cbn [u_req] in *.
    rewrite (fl_ty _ _ _ _ _ _ (fx_c _ _ _ _ _ P)) in NF. discriminate.
Qed.

Lemma req_looking : forall s a r, ph_req p s a r -> looking p s (a_c a) r.
Proof. intros s a r P. constructor; apply P. Qed.

Lemma both_ready : forall s i, i_resp_rdy i = true -> i_mreq_rdy i = true -> ostall2 s i = false.
Proof. intros s i H1 H2. rewrite ostall2_eq, H1, H2. apply andb_false_r. Qed.

(** *** The cycle in which a hit is in stage M1 *)
Lemma hit_cycle : forall s a r i, ph_req p s a r -> rw_req r = true -> tl_hit p (a_c a) r = true ->
  ostall2 s i = false -> let s' := next p s i in
  o_mreq (output p s i) = None /\ mem2 p s' = None /\
  req_rdy p s i = negb (tl_clean_hit p (a_c a) r) /\
  (exists y, resp2 p s' = Some y /\ cr_type y = cq_type r /\ cr_opq y = cq_opq r /\ cr_len y = cq_len r /\ cr_test y = 1) /\
  (i_req_en i = false -> forall i', ostall2 s' i' = false -> req_rdy p s' i' = true).
Proof.
  intros s a r i P RW H ST s'. pose proof (req_looking _ _ _ P) as LK.
  assert (IR : RefineInv.is_rw (cq_type r) = true) by exact RW. destruct (rw_type _ RW) as (NA & NI & NF).
  destruct (out_nostall p s i ST) as [_ OM].
  assert (EV : is_evict1 p s = false) by (rewrite (lw_evict p s _ r LK); apply (hit_noevict p s _ r LK); auto).
  assert (AL : cs1_alloc p s = false).
  { rewrite (lw_alloc p s _ r LK), NA, H, (hit_noevict p s _ r LK) by auto. auto. }
  assert (TT : t1 s = TR_READ_REQ \/ t1 s = TR_WRITE_REQ).
  { rewrite (rq_t1 _ _ _ _ P). destruct (req_trans_cases _ (rq_ty _ _ _ _ P)) as [(_ & E & _) | [(_ & E & _) | (E & _)]]; auto. congruence. }
  assert (NC : t1 s <> TR_CACHE_INIT) by (destruct TT as [E | E]; rewrite E; discriminate).
  assert (Q : q1_2 p s = pipe_req p r).
  { unfold q1_2, addr1_2. rewrite (lw_evmux p s _ r LK), (hit_noevict p s _ r LK), (rq_q1 _ _ _ _ P) by auto. auto. }
  assert (HF : has_flush_sent1 p s = false) by (unfold has_flush_sent1; destruct TT as [-> | ->]; auto).
  split; [rewrite OM; apply P|].
  split. { unfold s'. rewrite an_mem2 by auto. rewrite EV, (lw_hit1 p s _ r LK), H. unfold m2_mem. destruct TT as [-> | ->]; auto. }
  split.
  { unfold req_rdy, stall01, mshr_full, alloc_en, mshr_empty.
    rewrite (rq_fsm _ _ _ _ P), (rq_msn _ _ _ _ P), ST, AL, ostall1_eq, EV, (lw_whc p s _ r LK), IR, H. cbn.
    rewrite !orb_false_r. auto. }
  split.
  { unfold s'. rewrite an_resp2 by auto. rewrite EV, (lw_hit1 p s _ r LK), H, Q. unfold m2_resp.
    destruct TT as [-> | ->]; eexists; (split; [reflexivity|]); cbn; auto. }
  intros RE i' ST'.
  assert (T0 : trans0 p s i = TR_CLEAN_HIT \/ trans0 p s i = TR_INVALID).
  { unfold trans0. rewrite (rq_fsm _ _ _ _ P), (mr_val_mrv s (rq_mrv _ _ _ _ P)), RE, andb_false_r.
    destruct (write_hit_clean p s); cbn [andb]; auto. }
  assert (T1' : t1 s' = TR_CLEAN_HIT \/ t1 s' = TR_INVALID) by (unfold s'; rewrite an_t1 by auto; auto).
  assert (F : fsm s' = F_READY).
  { unfold s'. rewrite an_fsm by auto. unfold fsm_next. rewrite (rq_fsm _ _ _ _ P), (mr_val_mrv s (rq_mrv _ _ _ _ P)), RE, andb_false_r. auto. }
  assert (M : msn s' = 0).
  { unfold s'. rewrite an_msn by auto. rewrite AL, (rq_msn _ _ _ _ P).
    replace (cs0_dealloc p s i) with false; auto. unfold cs0_dealloc, cs0. destruct T0 as [-> | ->]; auto. }
  assert (EV' : is_evict1 p s' = false) by (unfold is_evict1, is_rwi1, is_amo1; destruct T1' as [-> | ->]; auto).
  assert (AL' : cs1_alloc p s' = false) by (unfold cs1_alloc, cs1; destruct T1' as [-> | ->]; rewrite ?EV'; auto).
  unfold req_rdy, stall01, mshr_full, alloc_en, mshr_empty. rewrite F, M, ST', AL', ostall1_eq, EV'.
  assert (WH : write_hit_clean p s' = false).
  { unfold write_hit_clean, is_rwi1. destruct T1' as [-> | ->]; auto. }
  rewrite WH. auto.
Qed.

(** *** Hits and pending words *)
Lemma word_dirty_iff : forall e off len, word_dirty p e off len = true <-> set_dirty p (te_dty p e) off len = te_dty p e.
Proof.
  intros e off len. unfold word_dirty, set_dirty.
  assert (K : forall d k, N.setbit d k = d <-> N.testbit d k = true).
  { intros d k. split; intros H.
    - rewrite <- H. apply N.setbit_eq.
    - apply N.bits_inj; intro j. rewrite N.setbit_eqb. destruct (N.eqb_spec k j); subst; auto. }
  destruct (len =? 3); [|rewrite K; tauto]. rewrite andb_true_iff. split.
  - intros [H1 H2]. apply K in H1. rewrite H1. apply K in H2. auto.
  - intros H. assert (X : forall j, N.testbit (te_dty p e) j = N.testbit (N.setbit (N.setbit (te_dty p e) (word_of p off)) (word_of_succ p off)) j) by (intros; rewrite H; auto).
    split; rewrite X, !N.setbit_eqb, N.eqb_refl, ?orb_true_r; auto.
Qed.

(** every word of the access is pending *)
Definition all_pending (P : N -> bool) (r : creq) : Prop :=
  forall k, word_num (cq_addr r) <= k <= word_num (cq_addr r + req_bytes p r - 1) -> P k = true.

Lemma clean_hit_pend : forall c r P, wf_req p r -> rw_req r = true -> uniq p c -> tl_hit p c r = true -> pendeq p P c ->
  tl_clean_hit p c r = false <-> (cq_type r = T_READ \/ all_pending P r).
Proof.
  intros c r P WF RW U H PE. unfold tl_clean_hit.
  pose proof (look_spec p W c r U) as LS. rewrite H in LS. inversion LS as [w V1 V2 V3 V4 V5 | |]. clear LS. subst w.
  cbn [negb andb].
  destruct (rw_cases p r WF RW) as [(T & _)|WR].
  { rewrite T. change (T_READ =? T_WRITE) with false. rewrite andb_false_r. split; auto. }
  pose proof WR as (T & _). rewrite T. change (T_WRITE =? T_WRITE) with true. rewrite andb_true_r, negb_false_iff.
  set (hw := tl_hw p c r) in *. set (e := ct c hw (a_idx p (cq_addr r))) in *. unfold tl_ent. fold e.
  assert (DK : forall a, a < 2 ^ p_abw p -> a_tag p a = a_tag p (cq_addr r) -> a_idx p a = a_idx p (cq_addr r) ->
     P (word_num a) = N.testbit (te_dty p e) (a_off p a / 4)).
  { intros a A T1 I1. rewrite PE by auto. rewrite (dset_at p W c a hw); auto; rewrite I1, ?T1; auto. apply lval_present; auto. }
  rewrite word_dirty_iff. pose proof (write_geo p W r WF WR) as G. pose proof (wg_fit _ _ _ G) as FIT. rewrite (wg_n _ _ _ G) in FIT.
  assert (NP : 1 <= req_bytes p r).
  { destruct (write_size p W r WF WR) as [(_ & _ & ->) | (_ & _ & [-> | [-> | ->]])]; lia. }
  pose proof WF as (HA & _).
  destruct (addr_add p W (cq_addr r) (req_bytes p r - 1) HA) as (B1 & B2 & B3 & B4); [lia|].
  split.
  - intros SD. right. intros k K.
    assert (KA : 4 * k < 2 ^ p_abw p).
    { destruct K as [_ K]. unfold word_num in K. replace (cq_addr r + req_bytes p r - 1) with (cq_addr r + (req_bytes p r - 1)) in K by lia.
      pose proof (N.mul_div_le (cq_addr r + (req_bytes p r - 1)) 4 ltac:(lia)). lia. }
    assert (KW : word_num (4 * k) = k) by (unfold word_num; rewrite N.mul_comm; apply N.div_mul; lia).
    pose proof (mark_word p W r (4 * k) WF WR KA) as MW. rewrite KW in MW.
    destruct K as [K1 K2]. rewrite (proj2 (N.leb_le _ _) K1), (proj2 (N.leb_le _ _) K2) in MW. cbn [andb] in MW. symmetry in MW.
    apply andb_prop in MW. destruct MW as [MW1 MW2]. apply andb_prop in MW1. destruct MW1 as [MT MI].
    apply N.eqb_eq in MT. apply N.eqb_eq in MI.
    rewrite <- KW, DK, <- SD, (set_dirty_exact p W r) by auto. rewrite MW2. apply orb_true_r.
  - intros [X | AP]; [discriminate|].
    apply N.bits_inj; intro j. rewrite (set_dirty_exact p W r) by auto.
    destruct ((a_off p (cq_addr r) / 4 <=? j) && (j <=? (a_off p (cq_addr r) + req_bytes p r - 1) / 4)) eqn:E; [|apply orb_false_r].
    rewrite orb_true_r. symmetry. apply andb_prop in E. destruct E as [E1 E2]. apply N.leb_le in E1. apply N.leb_le in E2.
    (* byte of word j inside the access *)
    assert (X : exists d, d <= req_bytes p r - 1 /\ (a_off p (cq_addr r) + d) / 4 = j).
    { set (o := a_off p (cq_addr r)) in *. set (n := req_bytes p r) in *. clearbody o n.
      destruct (N.eq_dec (o / 4) j) as [Ej|Ej]; [exists 0; rewrite N.add_0_r; split; auto; lia|].
      assert (4 * j > o). { pose proof (N.div_mod' o 4). pose proof (N.mod_lt o 4 ltac:(lia)). set (q := o / 4) in *. clearbody q. lia. }
      exists (4 * j - o). split.
      - pose proof (N.mul_div_le (o + n - 1) 4 ltac:(lia)). set (q := (o + n - 1) / 4) in *. clearbody q. lia.
      - replace (o + (4 * j - o)) with (j * 4) by lia. apply N.div_mul; lia. }
    destruct X as (d & D1 & D2).
    destruct (addr_add p W (cq_addr r) d HA) as (A1 & A2 & A3 & A4); [lia|].
    rewrite <- D2, <- A4, <- DK by auto. apply AP.
    unfold word_num. split; apply N.div_le_mono; lia.
Qed.

(** *** In a run *)
Lemma accept_state : forall s0 is i m0 m rq rs, sys_run p s0 (is ++ [i]) m0 m rq rs -> i_req_en i = true ->
  rw_req (i_req i) = true ->
  In (line_of p (cq_addr (i_req i))) (lru_run p lru_empty (accepted (trace_of p s0 is)) (line_of p (cq_addr (i_req i)) mod nblocks p)) ->
  exists a G, ph_req p (fst (run p s0 (is ++ [i]))) a (i_req i) /\ tl_hit p (a_c a) (i_req i) = true /\
    wf_req p (i_req i) /\ uniq p (a_c a) /\
    traffic p none lru_empty m0 (accepted (trace_of p s0 is)) G /\ concat G = memreqs (trace_of p s0 is) /\
    pendeq p (pend_run p none (accepted (trace_of p s0 is)) G) (a_c a).
Proof.
  intros s0 is i m0 m rq rs R RE RW IN.
  destruct (sys_cycle p W _ _ _ _ _ _ _ R) as (m1 & rq1 & rs1 & a & a' & R1 & ST & LG & AC & ST' & MT).
  destruct AC as (a1 & a2 & a3 & AR & AS & AD & AA). unfold o_acc in AA. rewrite RE in AA.
  pose proof R as (RS & CL & _). rewrite trace_snoc in CL. apply Forall_app in CL. destruct CL as [_ CL]. inversion CL as [|x l CL1 _ EX]. cbn [fst snd] in CL1.
  destruct (CL1 RE) as [RDY WF]. clear CL CL1 EX.
  inversion AA as [c r pd WT E1 E2 E3]. subst r a3. 
  set (r := i_req i) in *.
  rewrite <- E3 in ST'.
  inversion ST' as [c0 k CS PI NK Z1 Z2 Z3 Z4 EM EQ ES EA | a0 PH NK JA OA EA]. subst a0.
  destruct (J_hist p _ _ _ _ _ _ _ _ JA) as (A0 & c1 & mb & Q & pd' & HH & EP & EC & C). cbn [a_c a_pend a_cur] in *. subst c1.
  destruct C as [(_ & X & _) | (r' & ex & qs & todo & out & l9 & E & WF' & CU & TR & EM & PD & LO & LQ & F)]; [discriminate|].
  inversion CU; subst r' todo out l9. clear CU.
  assert (EXQ : ex = [] /\ qs = []).
  { rewrite app_assoc in TR. assert (L : length (tl_reqs p c r) = (length (ex ++ qs) + length (tl_reqs p c r))%nat) by (rewrite TR at 1; apply app_length).
    destruct ex, qs; cbn in L; try lia; auto. }
  destruct EXQ; subst ex qs. cbn [app map] in *. rewrite app_nil_r in F.
  assert (EA0 : A0 = accepted (trace_of p s0 is)).
  { rewrite trace_snoc, accepted_app in E. unfold accepted in E at 2. cbn [flat_map fst] in E. rewrite RE in E. cbn [app] in E.
    apply app_inj_tail in E. symmetry. apply E. }
  rewrite EA0 in *.
  destruct (hist_flat p W _ _ _ _ _ _ HH) as (I & V & _).
  destruct (hist_traffic p W _ _ _ _ _ _ HH _ F) as (G & LN & CG & TG & PG & LI & _).
  assert (HI : tl_hit p c r = true).
  { apply (in_lru p W _ c r LI (ci_uniq _ _ _ I) (ci_rep _ _ _ I)); [apply WF|].
    replace (a_idx p (cq_addr r)) with (line_of p (cq_addr r) mod nblocks p); auto. apply (line_set p W); apply WF. }
  exists (mkA c (Some (mkCur r (tl_reqs p c r) [] 0)) pd), G. cbn [a_c].
  assert (QR : memreqs (trace_of p s0 (is ++ [i])) = memreqs (trace_of p s0 is)).
  { rewrite trace_snoc, memreqs_app. destruct (sys_ready p W s0 is i m0 m rq rs R RDY) as [_ OQ].
    unfold memreqs at 2. cbn [flat_map snd]. rewrite OQ. cbn. rewrite app_nil_r. auto. }
  split. { apply (hit_phase _ _ (mkCur r (tl_reqs p c r) [] 0)); auto. rewrite run_snoc. auto. }
  split; auto.
  split; auto.
  split; [exact (ci_uniq _ _ _ I)|]. split; auto. split; auto. congruence.
Qed.

(** C38: a READ or WRITE hit, both sides ready in the two following cycles. *)
Theorem hit_latency : forall s0 is i0 i1 i2 m0 m rq rs, sys_run p s0 (is ++ [i0; i1; i2]) m0 m rq rs ->
  let A := accepted (trace_of p s0 is) in let r := i_req i0 in
  i_req_en i0 = true -> rw_req r = true ->
  In (line_of p (cq_addr r)) (lru_run p lru_empty A (line_of p (cq_addr r) mod nblocks p)) ->
  i_resp_rdy i1 = true -> i_mreq_rdy i1 = true -> i_resp_rdy i2 = true -> i_mreq_rdy i2 = true ->
  let o1 := output p (fst (run p s0 (is ++ [i0]))) i1 in
  let o2 := output p (fst (run p s0 (is ++ [i0; i1]))) i2 in
  o_mreq o1 = None /\ o_mreq o2 = None /\
  (exists y, o_resp o2 = Some y /\ cr_type y = cq_type r /\ cr_opq y = cq_opq r /\ cr_len y = cq_len r /\ cr_test y = 1) /\
  (exists G, traffic p none lru_empty m0 A G /\ concat G = memreqs (trace_of p s0 is) /\
     (o_req_rdy o1 = true <-> cq_type r = T_READ \/ all_pending (pend_run p none A G) r)) /\
  (i_req_en i1 = false -> o_req_rdy o2 = true).
Proof.
  intros s0 is i0 i1 i2 m0 m rq rs R A r RE RW IN B1 B2 B3 B4 o1 o2.
  assert (R1 : exists m1 rq1 rs1, sys_run p s0 (is ++ [i0]) m0 m1 rq1 rs1).
  { change [i0; i1; i2] with ([i0] ++ [i1; i2]) in R. rewrite app_assoc in R.
    destruct (sys_app p _ _ _ _ _ _ _ R) as (m1 & rq1 & rs1 & R1 & _). eauto. }
  destruct R1 as (m1 & rq1 & rs1 & R1).
  destruct (accept_state _ _ _ _ _ _ _ R1 RE RW IN) as (a & G & PH & HI & WF & U & TG & CG & PG). fold r in PH, HI, WF.
  pose proof (both_ready (fst (run p s0 (is ++ [i0]))) i1 B1 B2) as S1.
  destruct (hit_cycle _ _ _ _ PH RW HI S1) as (H1 & H2 & H3 & (y & H4 & H5) & H6).
  assert (EN : fst (run p s0 (is ++ [i0; i1])) = next p (fst (run p s0 (is ++ [i0]))) i1).
  { change [i0; i1] with ([i0] ++ [i1]). rewrite app_assoc. apply run_snoc. }
  rewrite <- EN in *. set (s2 := fst (run p s0 (is ++ [i0; i1]))) in *.
  pose proof (both_ready s2 i2 B3 B4) as S2. destruct (out_nostall p s2 i2 S2) as [OR OM].
  split; auto. split; [unfold o2; rewrite OM; auto|].
  split; [exists y; unfold o2; rewrite OR; auto|].
  split.
  - exists G. split; auto. split; auto. unfold o1. cbn [output o_req_rdy]. rewrite H3, negb_true_iff.
    apply clean_hit_pend; auto.
  - intros RE1. apply H6; auto.
Qed.

(** C41: back-to-back READ hits. *)
Lemma lru_keeps : forall L r l, rw_req r = true -> In (line_of p (cq_addr r)) (L (line_of p (cq_addr r) mod nblocks p)) ->
  (forall i, Nat.le (length (L i)) (N.to_nat (p_assoc p))) ->
  In l (L (l mod nblocks p)) -> In l (fst (lru_step p L r) (l mod nblocks p)).
Proof.
  intros L r l RW IN LE IL. unfold lru_step. rewrite RW. cbn [fst].
  set (x := line_of p (cq_addr r)) in *. destruct (l mod nblocks p =? x mod nblocks p) eqn:E; auto.
  apply N.eqb_eq in E. rewrite E in IL. rewrite firstn_all2.
  - destruct (N.eq_dec l x) as [->|N]; [left; auto|]. right. apply in_in_remove; auto.
  - cbn [length]. pose proof (remove_length_lt N.eq_dec _ _ IN). specialize (LE (x mod nblocks p)). lia.
Qed.
Lemma lru_short : forall A i, (length (lru_run p lru_empty A i) <= N.to_nat (p_assoc p))%nat.
Proof.
  assert (X : forall A L, (forall i, (length (L i) <= N.to_nat (p_assoc p))%nat) ->
    forall i, (length (lru_run p L A i) <= N.to_nat (p_assoc p))%nat).
  { induction A as [|r A IH]; intros L H i; cbn [lru_run]; auto. apply IH. clear i. intros i.
    unfold lru_step. destruct (rw_req r); cbn [fst].
    - destruct (i =? _); auto. rewrite firstn_length. lia.
    - destruct (is_amo (cq_type r)); cbn [fst].
      + destruct (i =? _); auto.
        assert (Y : forall l x, (length (remove N.eq_dec x l) <= length l)%nat).
        { induction l as [|y l IHl]; intros x; cbn; auto. destruct (N.eq_dec x y); cbn; specialize (IHl x); lia. }
        eapply Nat.le_trans; [apply Y | apply H].
      + destruct (cq_type r =? T_INV); cbn; auto. lia. }
  intros A. apply X. intros i. cbn. lia.
Qed.
Definition resident (A : list creq) (r : creq) : Prop :=
  In (line_of p (cq_addr r)) (lru_run p lru_empty A (line_of p (cq_addr r) mod nblocks p)).
Lemma resident_more : forall B A r, (forall x, In x B -> rw_req x = true /\ resident A x) -> resident A r -> resident (A ++ B) r.
Proof.
  induction B as [|x B IH]; intros A r H R; [rewrite app_nil_r; auto|].
  replace (A ++ x :: B) with ((A ++ [x]) ++ B) by (rewrite <- app_assoc; auto).
  assert (K : forall y, resident A y -> resident (A ++ [x]) y).
  { intros y Ry. unfold resident. rewrite lru_run_app. cbn [lru_run].
    destruct (H x (or_introl eq_refl)) as [RW RX]. apply lru_keeps; auto. apply lru_short. }
  apply IH; auto. intros y Iy. destruct (H y (or_intror Iy)). auto.
Qed.
Lemma accepted_all : forall is s, Forall (fun i => i_req_en i = true) is -> accepted (trace_of p s is) = map i_req is.
Proof.
  induction is as [|i is IH]; intros s F; auto. inversion F as [|x l X Y]. subst.
  change (i :: is) with ([i] ++ is). rewrite trace_app, accepted_app, IH by auto.
  rewrite trace_one. unfold accepted at 1. cbn [flat_map fst]. rewrite X. auto.
Qed.

Lemma firstn_snoc : forall T k (l : list T) x, nth_error l k = Some x -> firstn (S k) l = firstn k l ++ [x].
Proof.
  induction k as [|k IH]; intros [|y l] x H; try discriminate; cbn in *; [congruence|]. f_equal. auto.
Qed.
Lemma nth_trace : forall is s k i, nth_error is k = Some i ->
  nth_error (map snd (trace_of p s is)) k = Some (output p (fst (run p s (firstn k is))) i).
Proof.
  induction is as [|j is IH]; intros s k i H; [destruct k; discriminate|].
  change (j :: is) with ([j] ++ is) in *. rewrite trace_app, map_app, trace_one. cbn [map snd app].
  destruct k as [|k]; cbn [nth_error firstn app] in *.
  - inversion H. auto.
  - rewrite IH with (i := i) by auto. f_equal. change (j :: firstn k is) with ([j] ++ firstn k is). rewrite run_app. cbn. auto.
Qed.
Lemma both_idle_rdy : forall i, i_resp_rdy i && i_mreq_rdy i = true -> i_resp_rdy i = true /\ i_mreq_rdy i = true.
Proof. intros i H. apply andb_true_iff in H. auto. Qed.

Theorem hit_stream : forall s0 is is2 js m0 m rq rs, sys_run p s0 (is ++ is2 ++ js) m0 m rq rs ->
  let A := accepted (trace_of p s0 is) in
  Forall (fun i => i_resp_rdy i && i_mreq_rdy i = true) (is2 ++ js) ->
  Forall (fun i => i_req_en i = true /\ cq_type (i_req i) = T_READ /\ resident A (i_req i)) is2 ->
  length js = 2%nat ->
  let outs := map snd (trace_of p (fst (run p s0 is)) (is2 ++ js)) in
  forall k i, nth_error is2 k = Some i -> exists o1 o2 y,
     nth_error outs (k + 1) = Some o1 /\ nth_error outs (k + 2) = Some o2 /\
     o_req_rdy o1 = true /\ o_mreq o1 = None /\ o_mreq o2 = None /\ o_resp o2 = Some y /\
       cr_type y = T_READ /\ cr_opq y = cq_opq (i_req i) /\ cr_len y = cq_len (i_req i) /\ cr_test y = 1.
Proof.
  intros s0 is is2 js m0 m rq rs R A BR RD LJ outs.
  assert (NO : forall k i, nth_error (is2 ++ js) k = Some i ->
    nth_error outs k = Some (output p (fst (run p s0 (is ++ firstn k (is2 ++ js)))) i)).
  { intros k i H. unfold outs. rewrite run_app. cbn [fst]. apply nth_trace; auto. }
  intros k i H.
    assert (L : (k < length is2)%nat) by (apply nth_error_Some; rewrite H; discriminate).
    assert (HE : nth_error (is2 ++ js) k = Some i) by (rewrite nth_error_app1; auto).
    assert (LL : length (is2 ++ js) = (length is2 + 2)%nat) by (rewrite app_length; lia).
    destruct (nth_error (is2 ++ js) (k + 1)) as [i1|] eqn:H1; [|apply nth_error_None in H1; lia].
    destruct (nth_error (is2 ++ js) (k + 2)) as [i2|] eqn:H2; [|apply nth_error_None in H2; lia].
    pose proof (NO _ _ H1) as O1. pose proof (NO _ _ H2) as O2.
    assert (F1 : firstn (k + 1) (is2 ++ js) = firstn k (is2 ++ js) ++ [i]) by (rewrite Nat.add_1_r; apply firstn_snoc; auto).
    assert (F2 : firstn (k + 2) (is2 ++ js) = firstn k (is2 ++ js) ++ [i; i1]).
    { replace (k + 2)%nat with (S (k + 1)) by lia. rewrite (firstn_snoc _ _ _ i1) by auto. rewrite F1, <- app_assoc. auto. }
    assert (F3 : firstn (S (k + 2)) (is2 ++ js) = firstn k (is2 ++ js) ++ [i; i1; i2]).
    { rewrite (firstn_snoc _ _ _ i2) by auto. rewrite F2, <- app_assoc. auto. }
    assert (PR : exists m' rq' rs', sys_run p s0 ((is ++ firstn k (is2 ++ js)) ++ [i; i1; i2]) m0 m' rq' rs').
    { rewrite <- (firstn_skipn (S (k + 2)) (is2 ++ js)), F3 in R. rewrite app_assoc in R.
      destruct (sys_app p _ _ _ _ _ _ _ R) as (m1 & rq1 & rs1 & R1 & _). rewrite app_assoc in R1. eauto. }
    destruct PR as (m' & rq' & rs' & PR).
    pose proof (proj1 (Forall_forall _ _) BR) as BRF. pose proof (proj1 (Forall_forall _ _) RD) as RDF.
    destruct (both_idle_rdy _ (BRF _ (nth_error_In _ _ H1))) as [B1 B2].
    destruct (both_idle_rdy _ (BRF _ (nth_error_In _ _ H2))) as [B3 B4].
    destruct (RDF _ (nth_error_In _ _ H)) as (RE & TR & RES).
    assert (FK : firstn k (is2 ++ js) = firstn k is2).
    { rewrite firstn_app. replace (k - length is2)%nat with 0%nat by lia. cbn. rewrite app_nil_r. auto. }
    assert (AE : accepted (trace_of p s0 (is ++ firstn k (is2 ++ js))) = A ++ map i_req (firstn k is2)).
    { rewrite trace_app, accepted_app, FK. f_equal. apply accepted_all. apply Forall_forall. intros x Ix.
      apply (RDF x). rewrite <- (firstn_skipn k is2). apply in_or_app. auto. }
    assert (RW : rw_req (i_req i) = true) by (unfold rw_req; rewrite TR; auto).
    assert (IN : resident (accepted (trace_of p s0 (is ++ firstn k (is2 ++ js)))) (i_req i)).
    { rewrite AE. apply resident_more; auto. intros x Ix. apply in_map_iff in Ix. destruct Ix as (z & <- & Iz).
      destruct (RDF z) as (_ & TZ & RZ). { rewrite <- (firstn_skipn k is2). apply in_or_app. auto. }
      split; auto. unfold rw_req. rewrite TZ. auto. }
    destruct (hit_latency _ _ _ _ _ _ _ _ _ PR RE RW IN B1 B2 B3 B4) as (M1 & M2 & (y & Y1 & Y2 & Y3 & Y4 & Y5) & (G & _ & _ & RY) & _).
    rewrite F1, app_assoc in O1. rewrite F2, app_assoc in O2. 
    exists (output p (fst (run p s0 ((is ++ firstn k (is2 ++ js)) ++ [i]))) i1),
           (output p (fst (run p s0 ((is ++ firstn k (is2 ++ js)) ++ [i; i1]))) i2), y.
    split; auto. split; auto. split; [apply RY; auto|]. split; auto. split; auto. split; auto. rewrite <- TR. auto.
Qed.
End L.
