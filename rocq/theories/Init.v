(** WRITE_INIT in a cache with one way: the refinement of [RefineProofs] extended
    by the one request type it leaves out.  [tl_ini] is the proof device; the
    statements are in InitSpec.v and PropInit.v. *)
From Coq Require Import NArith List Bool Lia.
From Verif Require Import Bits Params Msg Units Rtl Tl ParamsProofs RtlLemmas RefineInv RefineStall RefineReq RefineAdv1 RefineProofs.
Import ListNotations.
Open Scope N_scope.

Section I.
Variable p : params.
Hypothesis W : wf_params p.
Hypothesis A1 : p_assoc p = 1.

(** A WRITE_INIT in cache state [c] (Ctrl 270-271, 378, 418-419, 612; UpdateTagArrayUnit 46-49): the
    tag entry gets the dirty bits [dm] that the MSHR happens to hold, the data row the
    written bytes. *)
Definition tl_ini (c : cst) (r : creq) (dm : N) : cst :=
  let i := a_idx p (cq_addr r) in
  mkC (tset (ct c) 0 i (mwrite (ct c 0 i) (mk_te p true dm (a_tag p (cq_addr r))) (ones_te p)))
      (upd (cd c) (tl_row p r 0) (mwrite (cd c (tl_row p r 0)) (tl_data p r) (wben_req p (a_off p (cq_addr r)) (cq_len r))))
      (cr c).

(** The same inputs without the request. *)
Definition noreq (i : inp) : inp :=
  mkInp false (i_req i) (i_resp_rdy i) (i_mreq_rdy i) (i_mresp_en i) (i_mresp i).
Definition is_ini (i : inp) : bool := i_req_en i && (cq_type (i_req i) =? T_INIT).

Record legalI (s : st) (out : list mreq) (i : inp) : Prop := mkLegalI {
  li_req : i_req_en i = true -> req_rdy p s i = true /\ (wf_type (cq_type (i_req i)) \/ cq_type (i_req i) = T_INIT);
  li_resp : i_mresp_en i = true -> exists m l, out = m :: l /\ mr_type (i_mresp i) = mq_type m
}.
Definition acycI (a : ast) (i : inp) (o : outp) (a' : ast) : Prop :=
  if is_ini i then
    exists a1 dm, acyc p a (noreq i) o a1 /\ a_cur a1 = None /\
      a' = mkA (tl_ini (a_c a1) (i_req i) dm) None (a_pend a1 ++ [tl_resp (i_req i) 0 0])
  else acyc p a i o a'.

Record ph_ini (s : st) (a : ast) : Prop := mkIni {
  ii_fsm : fsm s = F_READY; ii_msn : msn s = 0; ii_mrv : mrv s = false;
  ii_ctr : ctr s = last_line p; ii_t1 : t1 s = TR_INIT_REQ; ii_mem2 : mem2 p s = None;
  ii_cur : a_cur a = None; ii_pend : a_pend a = ol (resp2 p s) ++ ol (resp1 p s);
  ii_t : forall w k, tram s w k = ct (a_c a) w k;
  ii_d : forall k, dnext p s k = cd (a_c a) k;
  ii_r : forall k, rep s k = cr (a_c a) k
}.
Definition rep0 (s : st) : Prop := forall k, rep s k = 0.
Definition phaseI (s : st) (a : ast) : Prop := (phase p s a \/ ph_ini s a) /\ rep0 s.

Lemma rep0_next : forall s i, rep0 s -> rep0 (next p s i).
Proof.
  intros s i Z k. cbn [next rep]. destruct (rep_en1 p s i); auto. unfold upd. destruct (k =? idx1 p s); auto.
  unfold rep_wr, repl_policy. rewrite A1. reflexivity.
Qed.

Lemma legal_of : forall s out i, legalI s out i -> is_ini i = false -> legal p s out i.
Proof.
  intros s out i L N. constructor; [|apply (li_resp _ _ _ L)]. intros E. destruct (li_req _ _ _ L E) as [R [T|T]]; auto.
  unfold is_ini in N. rewrite E, T in N. discriminate.
Qed.
Lemma legal_noreq : forall s out i, legalI s out i -> legal p s out (noreq i).
Proof. intros s out i L. constructor; [discriminate | apply (li_resp _ _ _ L)]. Qed.

Lemma out_noreq : forall s i, output p s (noreq i) = output p s i.
Proof. reflexivity. Qed.
Lemma stall_noreq : forall s i, ostall2 s (noreq i) = ostall2 s i.
Proof. reflexivity. Qed.

(** *** The INIT transaction in M1 *)
Lemma ini_pu : forall s, t1 s = TR_INIT_REQ -> pu p s = (false, false, 0).
Proof. intros s T. unfold pu, pu_compare, is_init1. rewrite T. auto. Qed.
Lemma ini_hit : forall s, t1 s = TR_INIT_REQ -> hit1 p s = false.
Proof. intros s T. unfold hit1, pu_hit. rewrite (ini_pu s T). destruct (_ || _); auto. Qed.
Lemma ini_evict : forall s, t1 s = TR_INIT_REQ -> is_evict1 p s = false.
Proof.
  intros s T. unfold is_evict1, is_dty1. rewrite (ini_hit s T). unfold is_rwi1, pu_inval, pu_ld, line_dirty, tag_proc_en.
  rewrite (ini_pu s T), T. cbn. rewrite !andb_false_r. auto.
Qed.
Lemma ini_whc : forall s, t1 s = TR_INIT_REQ -> write_hit_clean p s = false.
Proof. intros s T. apply whc_t. rewrite T. discriminate. Qed.
Lemma ini_cs1 : forall s, t1 s = TR_INIT_REQ -> cs1 p s = (WB_REQ, true, true, false, false, false).
Proof. intros s T. unfold cs1. rewrite (ini_evict s T), T. auto. Qed.
Lemma ini_alloc : forall s, t1 s = TR_INIT_REQ -> cs1_alloc p s = false.
Proof. intros s T. unfold cs1_alloc. rewrite (ini_cs1 s T). auto. Qed.
Lemma ini_q12 : forall s, t1 s = TR_INIT_REQ -> q1_2 p s = q1 s.
Proof. intros s T. apply q1_2_eq. unfold cs1_evmux. rewrite (ini_cs1 s T). auto. Qed.

(** from an initialised line on *)
Lemma ini_adv : forall s a i, ph_ini s a -> rep0 s -> legal p s (a_outst a) i -> ostall2 s i = false ->
  exists a', acyc p a i (output p s i) a' /\ phase p (next p s i) a'.
Proof.
  intros s a i P Z L S. destruct P.
  assert (O : a_outst a = []) by (unfold a_outst; rewrite ii_cur0; auto).
  assert (R2 : resp2 p (next p s i) = resp1 p s) by (rewrite an_resp2 by auto; reflexivity).
  destruct (accept p W s i (a_c a)) as (a' & AC & PH); auto.
  - apply ini_evict; auto.
  - apply ini_whc; auto.
  - apply ini_alloc; auto.
  - rewrite <- O; auto.
  - intros k. rewrite rep0_next by auto. rewrite <- ii_r0. auto.
  - rewrite an_mem2, ini_evict, ini_hit, ii_t2 by auto. auto.
  - exists a'. split; auto. rewrite R2 in AC.
    exists a, (mkA (a_c a) (a_cur a) (ol (resp1 p s))), (mkA (a_c a) None (ol (resp1 p s))).
    split; [eapply no_recv; eauto|]. split; [apply send_resp; auto|].
    split; [right; rewrite ii_cur0; auto | auto].
Qed.

Lemma ini_stall : forall s a i, ph_ini s a -> legal p s (a_outst a) i -> ostall2 s i = true ->
  acyc p a i (output p s i) a /\ ph_ini (next p s i) a.
Proof.
  intros s a i P L S. pose proof (noreq_stall p _ _ _ L (stall01_m2 p _ _ S)) as NR. destruct P.
  assert (FI : fsm s <> F_INIT) by (rewrite ii_fsm0; discriminate).
  assert (TI : t1 s <> TR_CACHE_INIT) by (rewrite ii_t2; discriminate).
  split.
  { apply stall_acyc; auto. eapply noresp. unfold a_outst in L. rewrite ii_cur0 in L. eauto. }
  pose proof (stall_same p _ _ S FI TI NR) as SM.
  match type of SM with same _ _ ?s' => generalize dependent s' end; intros s' SM.
  constructor; intros;
  rewrite ?(sm_fsm _ _ _ SM), ?(sm_ctr _ _ _ SM), ?(sm_mrv _ _ _ SM), ?(sm_msn _ _ _ SM), ?(sm_t1 _ _ _ SM), ?(sm_rep _ _ _ SM), ?(sm_mem2 _ _ _ SM), ?(sm_resp2 _ _ _ SM), ?(sm_resp1 _ _ _ SM), ?(sm_tram _ _ _ SM), ?(sm_dnext _ _ _ SM); auto.
  rewrite tnext_invalid; auto. apply trans0_ready_idle; auto; [apply mr_val_mrv; auto | apply ini_whc; auto].
Qed.

(** *** Accepting an INIT *)
Record pre_ini (s : st) (i : inp) : Prop := mkPre {
  pi_fsm : fsm s = F_READY; pi_msn : msn s = 0; pi_mrv : mrv s = false;
  pi_ev : is_evict1 p s = false; pi_st : ostall2 s i = false; pi_whc : write_hit_clean p s = false;
  pi_al : cs1_alloc p s = false }.

Lemma rdy_pre : forall s a i, phaseI s a -> req_rdy p s i = true -> pre_ini s i.
Proof.
  intros s a i [P _] R. destruct (req_rdy_inv p s i R) as (WH & SS & ME & ALS).
  rewrite stall01_eq in SS. apply orb_false_iff in SS. destruct SS as [EV ST].
  assert (G : fsm s = F_READY /\ mrv s = false).
  { destruct P as [[P | r P | r P | r P | r P | r k P | r P | r P | r k P | r k P | r k P] | P]; destruct P; auto; exfalso.
    - congruence.
    - congruence.
    - destruct iv_t1 as [(Q & _) | (_ & Q & _)]; [|congruence]. unfold cs1_alloc, cs1 in ALS. rewrite EV, Q in ALS. discriminate ALS.
    - congruence.
    - unfold cs1_alloc, cs1 in ALS. rewrite EV, fs_t1 in ALS. discriminate ALS.
    - destruct fr_c. congruence.
    - destruct fw_c. congruence.
    - destruct fx_c. congruence. }
  destruct G. constructor; auto.
Qed.

Lemma phase_idle_of : forall s a, phase p s a -> t1 s = TR_INVALID -> msn s = 0 -> fsm s = F_READY -> ph_idle p s a.
Proof.
  intros s a P T M F. destruct P as [P | r P | r P | r P | r P | r k P | r P | r P | r k P | r k P | r k P]; auto; exfalso; destruct P.
  - destruct (req_trans_cases _ rq_ty) as [(_ & Q & _) | [(_ & Q & _) | (_ & Q & _)]]; congruence.
  - destruct (req_trans_cases _ ev_ty) as [(_ & Q & _) | [(_ & Q & _) | (_ & Q & _)]]; congruence.
  - congruence.
  - congruence.
  - congruence.
  - congruence.
  - congruence.
  - destruct fr_c. congruence.
  - destruct fw_c. congruence.
  - destruct fx_c. congruence.
Qed.

Lemma ini_trans0 : forall s i, pre_ini s i -> is_ini i = true -> trans0 p s i = TR_INIT_REQ.
Proof.
  intros s i P E. destruct P. unfold is_ini in E. apply andb_prop in E. destruct E as [E T].
  unfold trans0, mshr_empty. rewrite pi_fsm0, pi_whc0, E, pi_msn0, (mr_val_mrv s pi_mrv0). cbn [andb N.eqb].
  unfold req_type0, req_mux0, mux_sel0. rewrite pi_fsm0, pi_mrv0. cbn [fsm_eqb orb]. rewrite T. auto.
Qed.

Lemma enter_ini : forall s i a1, pre_ini s i -> rep0 s -> is_ini i = true -> i_mresp_en i = false ->
  phase p (next p s (noreq i)) a1 ->
  a_cur a1 = None /\
  ph_ini (next p s i) (mkA (tl_ini (a_c a1) (i_req i) (ms_dirty (msr s))) None (a_pend a1 ++ [tl_resp (i_req i) 0 0])).
Proof.
  intros s i a1 PR Z E NM PH. pose proof (ini_trans0 s i PR E) as TR. pose proof PR as PR'. destruct PR'.
  unfold is_ini in E. apply andb_prop in E. destruct E as [RE T]. apply N.eqb_eq in T.
  assert (FI : fsm s <> F_INIT) by (rewrite pi_fsm0; discriminate).
  pose proof (mr_val_mrv s pi_mrv0) as MV.
  set (i0 := noreq i) in *. set (r := i_req i) in *.
  assert (S0 : ostall2 s i0 = false) by exact pi_st0.
  assert (TR0 : trans0 p s i0 = TR_INVALID) by (apply trans0_ready_idle; auto).
  assert (DE : cs0_dealloc p s i0 = false) by (unfold cs0_dealloc, cs0; rewrite TR0; auto).
  assert (ID : ph_idle p (next p s i0) a1).
  { apply phase_idle_of; auto.
    - rewrite an_t1; auto.
    - rewrite an_msn, pi_al0, DE by auto. auto.
    - rewrite an_fsm by auto. unfold fsm_next. rewrite pi_fsm0, MV. cbn [andb]. rewrite andb_false_r. auto. }
  destruct ID.
  assert (T1 : t1 (next p s i0) = TR_INVALID) by (rewrite an_t1; auto).
  assert (R10 : resp1 p (next p s i0) = None) by (unfold resp1; rewrite T1; auto).
  assert (R2 : resp2 p (next p s i) = resp2 p (next p s i0)) by (rewrite !an_resp2 by auto; reflexivity).
  assert (M2 : mem2 p (next p s i) = mem2 p (next p s i0)) by (rewrite !an_mem2 by auto; reflexivity).
  rewrite R10 in id_pend. cbn [ol] in id_pend. rewrite app_nil_r in id_pend.
  assert (TS : forall w k, tram s w k = ct (a_c a1) w k).
  { intros w k. rewrite <- id_t. rewrite tram_next. unfold sram_wr, cs0_wr, cs0. rewrite TR0. cbn [fst snd]. rewrite andb_false_r. auto. }
  assert (DS : forall k, dram (next p s i) k = cd (a_c a1) k).
  { intros k. rewrite <- id_d. rewrite an_dram. rewrite (dnext_nowr p (next p s i0)), an_dram; auto. apply cs1_wr_false. rewrite T1. auto. }
  assert (RM : req_mux0 s i = r) by (unfold req_mux0, mux_sel0; rewrite pi_fsm0, pi_mrv0; auto).
  assert (T1' : t1 (next p s i) = TR_INIT_REQ) by (rewrite an_t1; auto).
  assert (AMO : tl_isamo r = false) by (unfold tl_isamo; rewrite T; reflexivity).
  assert (Q1 : q1 (next p s i) = pipe_req p r).
  { rewrite an_q1 by auto. unfold q0, addr0, len0, data0, cs0_admux, cs0_wdmux, cs0, is_amo0. rewrite TR, RM. cbn [fst snd trans_eqb orb].
    unfold pipe_req, tl_data. rewrite AMO. reflexivity. }
  split; auto.
  assert (R1 : resp1 p (next p s i) = Some (tl_resp r 0 0)).
  { unfold resp1. rewrite T1'. cbn [m2_active]. rewrite ini_evict, ini_hit, ini_q12, Q1 by auto. cbn [m2_resp]. rewrite fast_select_off. reflexivity. }
  constructor; cbn [a_cur a_pend a_c].
  - rewrite an_fsm by auto. unfold fsm_next, mshr_empty, req_type0. rewrite pi_fsm0, MV, RE, RM, T, pi_msn0. auto.
  - rewrite an_msn, pi_al0 by auto. replace (cs0_dealloc p s i) with false; auto. unfold cs0_dealloc, cs0. rewrite TR. auto.
  - rewrite an_mrv by auto. auto.
  - rewrite <- id_ctr, !an_ctr by auto. unfold ctr_en. rewrite TR, TR0. auto.
  - exact T1'.
  - rewrite M2. auto.
  - auto.
  - rewrite R1, R2, id_pend. auto.
  - intros w k. rewrite tram_next. unfold tl_ini. cbn [ct]. unfold sram_wr, tag_val0, is_ctr_way0, rep_rd, tset. rewrite TR, Z.
    unfold cs0_wr, cs0_wben, cs0. rewrite TR. cbn [fst snd]. rewrite andb_true_r.
    assert (TI : tag_idx0 p s i = a_idx p (cq_addr r)).
    { unfold tag_idx0, cs0_idxsel, addr0, cs0_admux, cs0. rewrite TR, RM. auto. }
    assert (TW : tag_wdata0 p s i = mk_te p true (ms_dirty (msr s)) (a_tag p (cq_addr r))).
    { unfold tag_wdata0, new_entry0, tag_tag0, cs0_cmd, cs0_tagsel, addr0, cs0_admux, cs0. rewrite TR, RM. auto. }
    rewrite TI, TW. destruct (N.eqb_spec w 0) as [->|N]; cbn [andb]; [|apply TS].
    unfold upd. rewrite !TS. destruct (k =? a_idx p (cq_addr r)); auto. 
  - intros k. unfold dnext, cs1_val, cs1_wr, dwben1, cs1_wben, drow1, addr1_2, cs1_evmux. rewrite !ini_cs1 by auto. cbn [fst snd].
    unfold sram_wr. cbn [andb]. unfold tl_ini. cbn [cd]. unfold upd. rewrite !DS.
    unfold way_offset1, off1. rewrite T1'. unfold pu_hit_way. rewrite ini_pu by auto. cbn [snd]. rewrite Q1. cbn [pipe_req cq_addr cq_len cq_data wben].
    unfold tl_row. auto.
  - intros k. unfold tl_ini. cbn [cr]. rewrite <- id_r. rewrite !an_rep by auto. auto.
Qed.

Lemma legal_noresp : forall s a i, phaseI s a -> legalI s (a_outst a) i -> is_ini i = true -> i_mresp_en i = false.
Proof.
  intros s a i P L E. destruct (i_mresp_en i) eqn:M; auto. exfalso.
  unfold is_ini in E. apply andb_prop in E. destruct E as [E _]. destruct (li_req _ _ _ L E) as [R _].
  destruct (li_resp _ _ _ L M) as (m & l & O & _). pose proof (rdy_pre s a i P R) as [].
  destruct P as [P _]. destruct P as [[P | r P | r P | r P | r P | r k P | r P | r P | r k P | r k P | r k P] | P] ; destruct P; unfold a_outst in O.
  all: try congruence.
  all: try (match goal with H : a_cur _ = _ |- _ => rewrite H in O; cbn in O; discriminate O end).
  - destruct (k =? 0); congruence.
  - destruct (k =? 0); congruence.
Qed.

Theorem step_simI : forall s a i, phaseI s a -> legalI s (a_outst a) i ->
  exists a', acycI a i (output p s i) a' /\ phaseI (next p s i) a'.
Proof.
  intros s a i PI L. pose proof PI as [P Z]. unfold acycI. destruct (is_ini i) eqn:E.
  - pose proof (legal_noresp s a i PI L E) as NM.
    assert (R : req_rdy p s i = true).
    { unfold is_ini in E. apply andb_prop in E. apply (li_req _ _ _ L). tauto. }
    pose proof (rdy_pre s a i PI R) as PR. pose proof (legal_noreq _ _ _ L) as L0.
    assert (ST : ostall2 s (noreq i) = false) by (destruct PR; auto).
    assert (G : exists a1, acyc p a (noreq i) (output p s (noreq i)) a1 /\ phase p (next p s (noreq i)) a1).
    { destruct P as [P | P]; [apply step_sim; auto | apply ini_adv; auto]. }
    destruct G as (a1 & AC & PH). destruct (enter_ini s i a1 PR Z E NM PH) as [CU PN].
    eexists. split; [exists a1, (ms_dirty (msr s)); rewrite <- out_noreq; split; [exact AC | split; [exact CU | reflexivity]]|].
    split; auto. apply rep0_next; auto.
  - pose proof (legal_of _ _ _ L E) as L0. destruct P as [P | P].
    + destruct (step_sim p W s a i P L0) as (a' & AC & PH). exists a'. split; auto. split; auto. apply rep0_next; auto.
    + destruct (ostall2 s i) eqn:S.
      * destruct (ini_stall s a i P L0 S) as [AC PH]. exists a. split; auto. split; auto. apply rep0_next; auto.
      * destruct (ini_adv s a i P Z L0 S) as (a' & AC & PH). exists a'. split; auto. split; auto. apply rep0_next; auto.
Qed.

(** *** Runs *)
Fixpoint legal_runI (s : st) (out : list mreq) (is : list inp) : Prop :=
  match is with
  | [] => True
  | i :: r => legalI s out i /\ legal_runI (next p s i) (outst_next out i (output p s i)) r
  end.
Inductive arunsI : ast -> list (inp * outp) -> ast -> Prop :=
| ari_nil : forall a, arunsI a [] a
| ari_cons : forall a i o a1 tr a2, acycI a i o a1 -> arunsI a1 tr a2 -> arunsI a ((i, o) :: tr) a2.

Lemma acycI_outst : forall a i o a', acycI a i o a' -> a_outst a' = outst_next (a_outst a) i o.
Proof.
  intros a i o a' H. unfold acycI in H. destruct (is_ini i).
  - destruct H as (a1 & dm & AC & CU & ->). apply acyc_outst in AC.
    assert (E : a_outst a1 = []) by (unfold a_outst; rewrite CU; auto). rewrite E in AC.
    change (outst_next (a_outst a) i o) with (outst_next (a_outst a) (noreq i) o). rewrite <- AC. reflexivity.
  - apply acyc_outst with p; auto.
Qed.

Theorem run_simI : forall is s a, phaseI s a -> legal_runI s (a_outst a) is ->
  exists a', arunsI a (combine is (snd (run p s is))) a' /\ phaseI (fst (run p s is)) a'.
Proof.
  induction is as [|i is IH]; intros s a P L.
  - exists a. split; [constructor|auto].
  - destruct L as [L1 L2]. destruct (step_simI s a i P L1) as (a1 & C & P1).
    rewrite <- (acycI_outst _ _ _ _ C) in L2.
    destruct (IH _ _ P1 L2) as (a2 & R & P2).
    exists a2. cbn [run step fst snd].
    destruct (run p (next p s i) is) as [s2 os] eqn:E. cbn [fst snd combine] in *.
    split; auto. econstructor; eauto.
Qed.

Lemma acycI_idle : forall a i, i_req_en i = false -> i_mresp_en i = false -> acycI a i (mkOut false None None) a.
Proof. intros a i E M. unfold acycI, is_ini. rewrite E. apply acyc_idle; auto. Qed.

Theorem init_simI : forall is s k, ph_init p s k -> legal_runI s [] is ->
  exists c0 a', clean_start p c0 /\ arunsI (mkA c0 None []) (combine is (snd (run p s is))) a' /\
    (phaseI (fst (run p s is)) a' \/
     a' = mkA c0 None [] /\ exists k', ph_init p (fst (run p s is)) k').
Proof.
  induction is as [|i is IH]; intros s k P L.
  - exists (mkC (fun _ _ => 0) (fun _ => 0) (fun _ => 0)). eexists. split; [|split; [constructor|]].
    + split; cbn [ct cr]; auto. intros. split; [unfold te_val; apply N.bits_0 | apply te_dty_0].
    + right. eauto.
  - destruct L as [L1 L2].
    assert (NI : i_req_en i = false).
    { destruct (i_req_en i) eqn:E; auto. destruct (li_req _ _ _ L1 E) as [R _]. unfold req_rdy in R. destruct P. rewrite in_fsm in R. discriminate R. }
    assert (L1' : legal p s [] i) by (apply legal_of; auto; unfold is_ini; rewrite NI; auto).
    destruct (init_step p W s k i P L1') as (O & RE & NM & N').
    assert (E : outst_next [] i (output p s i) = []) by (unfold outst_next; rewrite O, NM; auto).
    rewrite E in L2. destruct N' as [(K & N') | (K & c0 & C & N')].
    + destruct (IH _ _ N' L2) as (c0 & a' & C & R & Z).
      exists c0, a'. cbn [run step fst snd].
      destruct (run p (next p s i) is) as [s2 os] eqn:E'. cbn [fst snd combine] in *.
      split; auto. split; auto. econstructor; eauto. rewrite O. apply acycI_idle; auto.
    + assert (Z0 : rep0 (next p s i)) by (apply rep0_next; destruct P; auto).
      destruct (run_simI is (next p s i) (mkA c0 None [])) as (a' & R & Z); auto.
      { split; auto. }
      exists c0, a'. cbn [run step fst snd].
      destruct (run p (next p s i) is) as [s2 os] eqn:E'. cbn [fst snd combine] in *.
      split; auto. split; auto. econstructor; eauto. rewrite O. apply acycI_idle; auto.
Qed.

Theorem refinementI : forall s0 is, reset_state p s0 -> legal_runI s0 [] is ->
  exists c0 a', clean_start p c0 /\ arunsI (mkA c0 None []) (combine is (snd (run p s0 is))) a' /\
    (phaseI (fst (run p s0 is)) a' \/
     a' = mkA c0 None [] /\ exists k, ph_init p (fst (run p s0 is)) k).
Proof. intros. eapply init_simI; eauto. apply reset_init; auto. Qed.

End I.
