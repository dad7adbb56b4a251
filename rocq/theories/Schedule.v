(** The schedule of a program (C62). *)
From Coq Require Import NArith PeanoNat List Bool Lia.
From Verif Require Import Bits Params Msg Units Rtl Mem Tl Traffic ParamsProofs RtlLemmas RefineInv RefineStall RefineReq RefineAdv1 RefineAdv2 RefineAdv3
  RefineProofs Spec System SysProofs SysFacts UnitProofs ViewDefs ViewOps ViewProofs Facts1 Facts2 MetaProofs PendProofs TrafProofs Facts3 Progress Latency Hide Obliv Proto LiveSpec Live TimeSpec Service Service2 RunTime
  ExactSpec Exact Exact2 ScheduleSpec.
Import ListNotations.
Open Scope N_scope.

Section P.
Variable p : params.
Hypothesis W : wf_params p.

Lemma notrdy_msn : forall s i, msn s = 1 -> req_rdy p s i = false.
Proof. intros s i M. destruct (req_rdy p s i) eqn:E; auto. destruct (req_rdy_inv p _ _ E) as (_ & _ & X & _). rewrite M in X. discriminate. Qed.
Lemma notrdy_alloc : forall s i, cs1_alloc p s = true -> req_rdy p s i = false.
Proof. intros s i M. destruct (req_rdy p s i) eqn:E; auto. destruct (req_rdy_inv p _ _ E) as (_ & _ & _ & X). congruence. Qed.

(** A request that is not a hit: the cache is not ready, and there is time left. *)
Lemma cur_ready : forall s a r todo out l k, phase p s a -> a_cur a = Some (mkCur r todo out l) ->
  k + len todo = len (tl_reqs p (a_c a) r) -> len out <= k ->
  (rw_req r = true /\ tl_hit p (a_c a) r = true /\ ph_req p s a r) \/
  ((forall i, req_rdy p s i = false) /\ svc p r k + 2 < svc p r (len (tl_reqs p (a_c a) r)) + crem p r s (len out) k).
Proof.
  intros s a r todo out l k PH CU KT KO.
  assert (SF : cq_type r = T_FLUSH -> forall k, svc p r k = total_lines p + 3 + 4 * k).
  { intros E k0. unfold svc. rewrite E. reflexivity. }
  assert (SI : cq_type r = T_INV -> forall k, svc p r k = total_lines p + 3).
  { intros E k0. unfold svc. rewrite E. reflexivity. }
  assert (SV : RefineInv.is_rw (cq_type r) || is_amo (cq_type r) = true -> forall k0, svc p r k0 = if k0 =? 0 then 2 else xr r + 2 + k0).
  { intros TY k0. unfold svc, xr. destruct (N.eqb_spec (cq_type r) T_INV) as [E|E]; [rewrite E in TY; discriminate|].
    destruct (N.eqb_spec (cq_type r) T_FLUSH) as [E'|E']; [rewrite E' in TY; discriminate|].
    destruct (k0 =? 0); auto. destruct (is_amo (cq_type r)); lia. }
  assert (XR : 3 <= xr r) by (unfold xr; destruct (is_amo (cq_type r)); lia).
  destruct PH as [P | r0 P | r0 P | r0 P | r0 P | r0 kk P | r0 P | r0 P | r0 kk P | r0 kk P | r0 kk P].
  - rewrite (id_cur _ _ _ P) in CU. discriminate.
  - assert (r0 = r) by (rewrite (rq_cur _ _ _ _ P) in CU; inversion CU; auto). subst r0.
    pose proof (req_looking p _ _ _ P) as LK.
    destruct (rw_req r && tl_hit p (a_c a) r) eqn:HH; [left; apply andb_prop in HH; tauto|right].
    assert (HN : tl_hit p (a_c a) r = false \/ is_amo (cq_type r) = true).
    { pose proof (rw_not_amo p s _ r LK) as RA. change (rw_req r) with (RefineInv.is_rw (cq_type r)) in HH. rewrite RA in HH.
      destruct (tl_hit p (a_c a) r); auto. right. rewrite andb_true_r, negb_false_iff in HH. auto. }
    split.
    + intros i. apply notrdy_alloc. rewrite (lw_alloc p s _ r LK). destruct HN as [-> | ->]; rewrite ?orb_true_r; auto.
    + pose proof (rq_ty _ _ _ _ P) as TY. rewrite (rq_cur _ _ _ _ P) in CU. inversion CU; subst todo out l.
      assert (k = 0) by lia. subst k. rewrite !SV by auto.
      assert (TN : len (tl_reqs p (a_c a) r) <> 0).
      { assert (tl_reqs p (a_c a) r <> []); [|destruct (tl_reqs p (a_c a) r); [congruence|unfold len; cbn [length]; lia]].
        unfold tl_reqs.
        destruct (N.eqb_spec (cq_type r) T_INV) as [E|E]; [rewrite E in TY; discriminate|].
        destruct (N.eqb_spec (cq_type r) T_FLUSH) as [E'|E']; [rewrite E' in TY; discriminate|].
        unfold tl_isamo. destruct HN as [HN|HN]; rewrite HN; destruct (tl_evict p (a_c a) r), (is_amo (cq_type r)); cbn; discriminate. }
      rewrite (proj2 (N.eqb_neq _ _) TN). change (0 =? 0) with true. cbn iota.
      pose proof (crem_pos p r s (len []) 0). lia.
  - right. assert (r0 = r) by (rewrite (ev_cur _ _ _ _ P) in CU; inversion CU; auto). subst r0.
    pose proof (ev_ty _ _ _ _ P) as TY. rewrite (ev_cur _ _ _ _ P) in CU. inversion CU; subst todo out l. destruct P.
    assert (NF : cq_type r <> T_FLUSH) by (intro E; rewrite E in TY; discriminate).
    pose proof (tl_reqs_le2 p (a_c a) r NF) as LE2.
    assert (K0 : k = 0) by (unfold len in KT; cbn [length] in KT; lia). subst k. 
    split.
    + intros i. apply notrdy_alloc.
      assert (TP : tag_proc_en s = false) by (unfold tag_proc_en; rewrite ev_ev2; auto).
      assert (PU : pu p s = (false, false, 0)) by (unfold pu, pu_compare; rewrite TP, andb_false_r; auto).
      assert (H1 : hit1 p s = false) by (unfold hit1, pu_hit; rewrite PU; cbn; destruct (is_rwi1 s || is_amo1 s); auto).
      assert (LD : forall w, pu_ld p s w = false) by (intro; unfold pu_ld, line_dirty; rewrite TP; auto).
      assert (EV : is_evict1 p s = false).
      { unfold is_evict1, is_dty1. rewrite H1, !LD. destruct (is_rwi1 s), (is_amo1 s); cbn; auto; rewrite ?andb_false_r; auto. }
      unfold cs1_alloc, cs1. rewrite EV, H1, ev_t1.
      destruct (req_trans_cases _ ev_ty) as [(_ & E & _) | [(_ & E & _) | (_ & E & _)]]; rewrite E; auto.
    + rewrite !SV by auto. assert (EL : len (tl_reqs p (a_c a) r) = 2) by (unfold len in *; cbn [length] in KT; lia). rewrite EL.
      change (2 =? 0) with false. change (0 =? 0) with true. cbn iota. pose proof (crem_pos p r s (len []) 0). lia.
  - right. assert (r0 = r).
    { destruct (wt_cur _ _ _ _ P) as [(_ & _ & _ & ? & ? & _ & X) | [(_ & _ & ? & ? & ? & _ & _ & X) | (_ & _ & X)]]; rewrite X in CU; inversion CU; auto. }
    subst r0. destruct P. split; [intros; apply notrdy_msn; auto|].
    assert (NF : cq_type r <> T_FLUSH) by (intro E; rewrite E in wt_ty; discriminate).
    pose proof (tl_reqs_le2 p (a_c a) r NF) as LE2.
    unfold crem. rewrite wt_t1, wt_fsm.
    destruct wt_cur as [(M2 & _ & MV & out0 & l0 & AK & CU2) | [(T2 & MV & out0 & m & l0 & AK & MN & CU2) | (T2 & MV & CU2)]];
      rewrite CU in CU2; rewrite MV.
    + rewrite M2. assert (E : todo = [main_req p (a_c a) r]) by (inversion CU2; auto). subst todo.
      assert (L : len [main_req p (a_c a) r] = 1) by reflexivity. rewrite L in KT. rewrite <- KT, !SV by auto.
      replace (k + 1 =? 0) with false by (symmetry; apply N.eqb_neq; lia).
      destruct (N.eqb_spec k 0); lia.
    + destruct (m2_inactive p s) as [_ M2]; [rewrite T2; auto|]. rewrite M2.
      assert (E : todo = []) by (inversion CU2; auto). subst todo. unfold len at 1 in KT. cbn [length] in KT. rewrite <- KT. replace (k + N.of_nat 0) with k by lia. lia.
    + assert (E : todo = []) by (inversion CU2; auto). subst todo. unfold len at 1 in KT. cbn [length] in KT. rewrite <- KT. replace (k + N.of_nat 0) with k by lia. lia.
  - right. destruct (rf_cur _ _ _ _ P) as (l0 & CU2 & _). rewrite CU in CU2. inversion CU2; subst r0 todo out l0. destruct P.
    split; [intros; apply notrdy_msn; auto|]. unfold crem. rewrite rf_t1, rf_fsm.
    unfold len at 1 in KT. cbn [length] in KT. rewrite <- KT. replace (k + N.of_nat 0) with k by lia. lia.
  - right. pose proof (iv_cur _ _ _ _ _ P) as CU2. rewrite CU in CU2. inversion CU2; subst r0 todo out l. destruct P.
    unfold len at 1 in KT. cbn [length] in KT. rewrite <- KT. replace (k + N.of_nat 0) with k by lia.
    split.
    + intros i. destruct iv_t1 as [(T & _) | (_ & M & _)]; [|apply notrdy_msn; auto]. apply notrdy_alloc.
      unfold cs1_alloc, cs1. rewrite T. destruct (is_evict1 p s); auto.
    + unfold crem. rewrite iv_fsm. destruct iv_t1 as [(-> & _) | (-> & _)]; lia.
  - right. pose proof (il_cur _ _ _ _ P) as CU2. rewrite CU in CU2. inversion CU2; subst r0 todo out l. destruct P.
    unfold len at 1 in KT. cbn [length] in KT. rewrite <- KT. replace (k + N.of_nat 0) with k by lia.
    split; [intros; apply notrdy_msn; auto|]. unfold crem. rewrite il_t1, il_fsm. lia.
  - right. pose proof (fs_cur _ _ _ _ P) as CU2. rewrite CU in CU2. inversion CU2; subst r0 todo out l. destruct P.
    split.
    + intros i. apply notrdy_alloc. unfold cs1_alloc, cs1. rewrite fs_t1. destruct (is_evict1 p s); auto.
    + unfold crem. rewrite fs_t1, !SF by auto. lia.
  - right. destruct (fr_cur _ _ _ _ _ P) as (l0 & CU2). rewrite CU in CU2. inversion CU2; subst r0 out l0. destruct P, fr_c.
    split; [intros; apply notrdy_msn; auto|]. unfold crem. rewrite fl_t1, !SF by auto. lia.
  - right. assert (r0 = r).
    { destruct (fw_cur _ _ _ _ _ P) as [(o & e & l0 & _ & _ & _ & _ & E & _) | [(q' & l0 & T2 & _ & T & E & _) | (l0 & _ & _ & _ & E & _)]]; rewrite CU in E; inversion E; auto. }
    subst r0. destruct P, fw_c. split; [intros; apply notrdy_msn; auto|].
    unfold crem. rewrite fl_t1, fw_fsm, !SF by auto.
    destruct fw_cur as [(o & e & l0 & M2 & _ & MV & _ & E & _) | [(q' & l0 & T2 & MV & T & E & _) | (l0 & T2 & MV & _ & E & _)]]; rewrite CU in E; rewrite MV.
    + rewrite M2. assert (EE : todo = e :: flush_reqs p (a_c a) (cq_opq r) (N.to_nat kk)) by (inversion E; auto). subst todo.
      unfold len at 1 in KT. cbn [length] in KT. lia.
    + destruct (m2_inactive p s) as [_ M2]; [rewrite T2; auto|]. rewrite M2. lia.
    + lia.
  - right. destruct (fx_cur _ _ _ _ _ P) as (l0 & CU2). rewrite CU in CU2. inversion CU2; subst r0 out l0. destruct P, fx_c.
    split; [intros; apply notrdy_msn; auto|]. unfold crem. rewrite fl_t1, !SF by auto. lia.
Qed.

(** *** The bookkeeping *)
Lemma cur_exact : forall m0 s n m rq rs tr a r todo out l, stok p m0 s n m rq rs tr a -> a_cur a = Some (mkCur r todo out l) ->
  exists A0, accepted tr = A0 ++ [r] /\ wf_req p r /\ uniq p (a_c a) /\ pendeq p (x_pend (x_after p x_empty A0)) (a_c a) /\
    map shape_of (tl_reqs p (a_c a) r) = fst (x_step p (x_after p x_empty A0) r).
Proof.
  intros m0 s n m rq rs tr a r todo out l ST CU. destruct (stok_J p _ _ _ _ _ _ _ _ ST) as [JA _].
  destruct (J_hist p _ _ _ _ _ _ _ _ JA) as (A0 & c1 & mb & Q & pd' & HH & EP & EC & C).
  destruct C as [(_ & X & _) | (r' & ex & qs & todo' & out' & l9 & E & WF' & CU2 & TR & EM & PD & LO & LQ & F)]; [congruence|].
  rewrite CU in CU2. inversion CU2; subst r' todo' out' l9. clear CU2. subst c1. set (c := a_c a) in *.
  apply Forall2_app_inv_l in F. destruct F as (S1 & S2 & F1 & F2 & ES).
  destruct (hist_flat p W _ _ _ _ _ _ HH) as (I & _).
  destruct (hist_exact p W _ _ _ _ _ _ HH _ F1) as (X & _). destruct (xstep p W _ c mb r X I WF') as [X1 _].
  exists A0. split; auto. split; auto. split; [exact (ci_uniq _ _ _ I)|]. split; [exact (xr_pend _ _ _ X)|]. auto.
Qed.
Lemma words_pend : forall P r, 1 <= req_bytes p r -> forallb P (words_of p r) = true <-> all_pending p P r.
Proof.
  intros P r NB. unfold all_pending, words_of. rewrite forallb_forall.
  assert (L : word_num (cq_addr r) <= word_num (cq_addr r + req_bytes p r - 1)) by (apply N.div_le_mono; lia).
  set (a := word_num (cq_addr r)) in *. set (b := word_num (cq_addr r + req_bytes p r - 1)) in *. clearbody a b. split.
  - intros H k K. apply H. apply in_map_iff. exists (k - a). split; [lia|]. apply in_range. lia.
  - intros H k K. apply in_map_iff in K. destruct K as (j & <- & J). apply in_range in J. apply H. lia.
Qed.
Lemma clean_first : forall c r x, wf_req p r -> rw_req r = true -> uniq p c -> tl_hit p c r = true -> pendeq p (x_pend x) c ->
  tl_clean_hit p c r = first_write p x r.
Proof.
  intros c r x WF RW U H PE. unfold first_write. apply Bool.eq_true_iff_eq.
  rewrite <- not_false_iff_true. rewrite (clean_hit_pend p W c r _ WF RW U H PE).
  rewrite andb_true_iff, negb_true_iff.
  destruct (rw_cases p r WF RW) as [(T & _)|WR].
  - rewrite T. change (T_READ =? T_WRITE) with false. split; [intros X; exfalso; apply X; auto | intros [X _]; discriminate X].
  - pose proof WR as (T & _).
    assert (NP : 1 <= req_bytes p r).
    { destruct (write_size p W r WF WR) as [(_ & _ & ->) | (_ & _ & [-> | [-> | ->]])]; lia. }
    rewrite <- (words_pend (x_pend x) r NP), T. change (T_WRITE =? T_WRITE) with true.
    split.
    + intros X. split; auto. apply not_true_iff_false. intros Y. apply X. auto.
    + intros (_ & X) [Y|Y]; [discriminate Y|congruence].
Qed.

(** *** When the cache is ready again *)
Lemma first_type : forall x r, first_write p x r = true -> cq_type r = T_WRITE.
Proof. intros x r H. unfold first_write in H. apply andb_prop in H. apply N.eqb_eq. apply H. Qed.
Lemma gap_ge : forall x r, (service p r (made p x r) - 1 <= gap p x r)%nat.
Proof.
  intros x r. unfold gap. destruct (made p x r) eqn:M; [|lia]. destruct (first_write p x r) eqn:F; [|lia].
  unfold service. rewrite (first_type _ _ F). cbn. lia.
Qed.
Lemma gap_le : forall x r, (gap p x r <= service p r (made p x r))%nat.
Proof.
  intros x r. unfold gap. destruct (made p x r) eqn:M; [|lia]. destruct (first_write p x r) eqn:F; [|lia].
  unfold service. rewrite (first_type _ _ F). cbn. lia.
Qed.
Lemma rw_svc0 : forall r, rw_req r = true -> svc p r 0 = 2.
Proof. intros r RW. destruct (rw_type _ RW) as (NA & NI & NF). unfold svc. rewrite NI, NF. auto. Qed.

Lemma answered_late : forall is2 is i s0 m0 m rq rs, sys_run p s0 ((is ++ [i]) ++ is2) m0 m rq rs -> i_req_en i = true ->
  Forall (fun j => ready j = true) is2 ->
  let tr1 := trace_of p s0 (is ++ [i]) in let s1 := fst (run p s0 (is ++ [i])) in let tr2 := trace_of p s1 is2 in
  (length (responses (tr1 ++ tr2)) < length (accepted tr1))%nat \/
  (service p (i_req i) (made p (x_after p x_empty (accepted (trace_of p s0 is))) (i_req i)) <= productive_cycles tr1 tr2)%nat.
Proof.
  induction is2 as [|j is2 IH] using rev_ind; intros is i s0 m0 m rq rs R RE F tr1 s1 tr2.
  - left. rewrite app_nil_r in R. unfold tr2. change (trace_of p s1 []) with (@nil (inp * outp)). rewrite app_nil_r.
    destruct (accept_lft p W _ _ _ _ _ _ _ R RE) as (a & ST & CU & _). pose proof (counts p _ _ _ _ _ _ _ _ ST) as CN. rewrite CU in CN. unfold tr1. lia.
  - destruct (run_cycle p W is2 is i j s0 m0 m rq rs R RE) as (ET & m1 & rq1 & rs1 & R1 & _). fold tr1 s1 in ET. fold tr2 in ET.
    pose proof F as F0. apply Forall_app in F. destruct F as [F1 F2].
    specialize (IH _ _ _ _ _ _ _ R1 RE F1). fold tr1 s1 in IH. cbv zeta in IH.
    destruct (Nat.lt_ge_cases (length (responses (tr1 ++ tr2))) (length (accepted tr1))) as [LT|GE]; [left; auto|right].
    destruct (Nat.lt_ge_cases (length (responses (tr1 ++ trace_of p s1 is2))) (length (accepted tr1))) as [LT'|GE'].
    + destruct (service_exact p W is2 is i j s0 m0 m rq rs R RE F0 LT' GE) as (PC & m9 & rq9 & rs9 & a1 & ST & CU & LN).
      fold tr1 s1 tr2 in PC, LN, ST. rewrite PC. apply Nat.eq_le_incl. f_equal. rewrite LN.
      destruct (cur_exact _ _ _ _ _ _ _ _ _ _ _ _ ST CU) as (A0 & EA & _ & _ & _ & EX).
      unfold tr1 in EA. rewrite trace_snoc, accepted_app, acc_one in EA. cbn [fst] in EA. rewrite RE in EA. apply app_inj_tail in EA. destruct EA as [<- _].
      unfold made. rewrite <- EX, map_length. auto.
    + destruct IH as [LT|LE]; [lia|]. rewrite ET, productive_app. lia.
Qed.

Theorem ready_iff : forall is2 is i j s0 m0 m rq rs, sys_run p s0 ((is ++ [i]) ++ is2) m0 m rq rs -> i_req_en i = true ->
  Forall (fun j => ready j = true) is2 -> ready j = true ->
  let tr1 := trace_of p s0 (is ++ [i]) in let s1 := fst (run p s0 (is ++ [i])) in let tr2 := trace_of p s1 is2 in
  accepted tr2 = [] ->
  o_req_rdy (output p (fst (run p s1 is2)) j) = true <->
  (gap p (x_after p x_empty (accepted (trace_of p s0 is))) (i_req i) <= productive_cycles tr1 tr2 + 1)%nat.
Proof.
  intros is2 is i j s0 m0 m rq rs R RE F RJ tr1 s1 tr2 NA. set (x0 := x_after p x_empty (accepted (trace_of p s0 is))). set (r := i_req i).
  assert (TX : tr1 ++ tr2 = trace_of p s0 ((is ++ [i]) ++ is2)) by (unfold tr1, tr2, s1; symmetry; apply trace_app).
  assert (ES : fst (run p s0 ((is ++ [i]) ++ is2)) = fst (run p s1 is2)) by (unfold s1; rewrite (run_app p (is ++ [i]) is2 s0); auto).
  assert (A1 : accepted tr1 = accepted (trace_of p s0 is) ++ [r]).
  { unfold tr1. rewrite trace_snoc, accepted_app, acc_one. cbn [fst]. rewrite RE. auto. }
  assert (RJ' : i_resp_rdy j && i_mreq_rdy j = true) by exact RJ. destruct (both_idle_rdy _ RJ') as [J1 J2].
  destruct (Nat.lt_ge_cases (length (responses (tr1 ++ tr2))) (length (accepted tr1))) as [UN|AN].
  - destruct (service_inv p W is2 is i s0 m0 m rq rs R RE UN) as (m9 & rq9 & rs9 & a9 & ST9 & CU9 & a & x & ST & LF & _ & EQ & _).
    fold tr1 s1 tr2 in ST, LF, EQ, ST9. rewrite ES in ST, LF. set (sx := fst (run p s1 is2)) in *. specialize (EQ F).
    destruct (cur_exact _ _ _ _ _ _ _ _ _ _ _ _ ST9 CU9) as (A9 & EA & _ & _ & _ & EX). rewrite A1 in EA. apply app_inj_tail in EA. destruct EA as [<- _].
    fold x0 r in EX. assert (MD : made p x0 r = length (tl_reqs p (a_c a9) r)) by (unfold made; rewrite <- EX, map_length; auto).
    fold r in LF, EQ. assert (NE : accepted (tr1 ++ tr2) <> []).
    { intro E. rewrite accepted_app, A1 in E. destruct (accepted (trace_of p s0 is)); discriminate E. }
    assert (PH : phase p sx a).
    { inversion ST as [c0 k CS PI NK Z1 Z2 Z3 Z4 EM EQ2 ES2 EA | a0 PH NK JA OA EA]; auto. congruence. }
    pose proof (both_ready sx j J1 J2) as SS.
    assert (TK : N.of_nat (made p x0 r) = len (tl_reqs p (a_c a9) r)) by (rewrite MD; auto).
    assert (SK : N.of_nat (service p r (made p x0 r)) = svc p r (len (tl_reqs p (a_c a9) r))) by (rewrite svc_ok, TK; auto).
    pose proof (gap_ge x0 r) as GG.
    destruct LF as [(L & todo & out & l & CU & KT & KO & TKE & EXX) | [(L & CU & KK & EXX) | (L & _)]].
    + rewrite <- TKE in SK. cbn [output o_req_rdy].
      destruct (cur_ready _ _ _ _ _ _ _ PH CU KT KO) as [(RW & HI & PQ) | (NR & TIME)].
      * destruct (cur_exact _ _ _ _ _ _ _ _ _ _ _ _ ST CU) as (A2 & EA & WF & U & PE & _).
        rewrite accepted_app, NA, app_nil_r, A1 in EA. apply app_inj_tail in EA. destruct EA as [<- _]. fold x0 in PE.
        destruct (hit_cycle p _ _ _ _ PQ RW HI SS) as (_ & _ & RDY & _). rewrite RDY, negb_true_iff.
        rewrite (clean_first _ _ x0 WF RW U HI PE).
        assert (Z : tl_reqs p (a_c a) r = []).
        { destruct (rw_type _ RW) as (N1 & N2 & N3). unfold tl_reqs. rewrite N2, N3.
          pose proof (hit_noevict p sx _ r (req_looking p _ _ _ PQ)) as NEV. unfold tl_isamo. rewrite NEV, HI, N1; auto. }
        rewrite Z in *. unfold len in TKE. cbn [length] in TKE. assert (M0 : made p x0 r = 0%nat) by lia.
        assert (D0 : productive_cycles tr1 tr2 = 0%nat).
        { assert (C2 : crem p r sx (len out) (N.of_nat (length (memreqs tr2))) = 2).
          { unfold crem. rewrite (rq_t1 _ _ _ _ PQ), (rq_ev2 _ _ _ _ PQ). destruct (req_trans_cases _ (rq_ty _ _ _ _ PQ)) as [(_ & -> & _) | [(_ & -> & _) | (_ & -> & _)]]; auto. }
          unfold len in KT. cbn [length] in KT. assert (K0 : N.of_nat (length (memreqs tr2)) = 0) by lia.
          rewrite EXX, C2, K0, rw_svc0 in EQ by auto. lia. }
        rewrite D0. unfold gap. rewrite M0. destruct (rw_type _ RW) as (N1 & N2 & N3).
        unfold service. rewrite N2, N3. destruct (first_write p x0 r); cbn; split; intros; try lia; try discriminate; auto.
      * rewrite NR. split; [discriminate|]. intros LE. exfalso. rewrite EXX in EQ. lia.
    + assert (RR : o_req_rdy (output p sx j) = true).
      { cbn [output o_req_rdy]. apply (idle_ready p sx a); auto. apply phase_none; auto. }
      rewrite RR. split; auto. intros _.
      assert (D1 : (1 <= productive_cycles tr1 tr2)%nat).
      { destruct is2 as [|h is2].
        - exfalso.
          assert (PH9 : phase p s1 a9).
          { inversion ST9 as [c0 k CS PI NK Z1 Z2 Z3 Z4 EM EQ2 ES2 EA | a0 PH9 NK JA OA EA]; auto. rewrite A1 in Z1. destruct (accepted (trace_of p s0 is)); discriminate Z1. }
          destruct (cur_ready _ _ _ _ _ _ 0 PH9 CU9) as [(_ & _ & PQ) | (NR & _)]; [unfold len; lia | unfold len; cbn; lia | |].
          + pose proof (id_t1 _ _ _ (phase_none p _ _ PH CU)) as T. change sx with s1 in T. rewrite (rq_t1 _ _ _ _ PQ) in T.
            destruct (req_trans_cases _ (rq_ty _ _ _ _ PQ)) as [(_ & E & _) | [(_ & E & _) | (_ & E & _)]]; rewrite E in T; discriminate T.
          + specialize (NR j). cbn [output o_req_rdy] in RR. change sx with s1 in RR. congruence.
        - unfold tr2. rewrite trace_cons. cbn [productive_cycles fst].
          destruct (stok_J p _ _ _ _ _ _ _ _ ST9) as [_ OT]. rewrite (outst_cur _ _ _ _ _ CU9) in OT.
          unfold productive. rewrite OT. pose proof (Forall_inv F) as RH. cbn beta in RH. unfold ready in RH. rewrite RH. cbn. lia. }
      unfold gap in *. destruct (made p x0 r) as [|n] eqn:M0.
      * destruct (first_write p x0 r); [lia|]. rewrite KK in EQ. destruct (is_some (resp1 p sx)); lia.
      * rewrite KK in EQ. destruct (is_some (resp1 p sx)); lia.
    + rewrite accepted_app, NA, app_nil_r in L. lia.
  - destruct (answered_late _ _ _ _ _ _ _ _ R RE F) as [LT|LE]; [fold tr1 s1 tr2 in LT; lia|]. fold tr1 s1 tr2 x0 r in LE.
    pose proof (gap_le x0 r). split; [lia|]. intros _. rewrite <- ES.
    assert (AL : (length (accepted (trace_of p s0 ((is ++ [i]) ++ is2))) <= length (responses (trace_of p s0 ((is ++ [i]) ++ is2))))%nat).
    { rewrite <- TX, accepted_app, NA, app_nil_r. auto. }
    eapply (Live.sys_ready p W); eauto.
    destruct (N.lt_ge_cases (N.of_nat (length ((is ++ [i]) ++ is2))) (total_lines p)) as [LT|]; auto. exfalso.
    destruct (sys_init p W _ _ _ _ _ _ R LT) as (NAC & _). rewrite <- TX, accepted_app, A1 in NAC. destruct (accepted (trace_of p s0 is)); discriminate NAC.
Qed.
(** A request is answered in its time. *)
Theorem answered_iff : forall is2 is i s0 m0 m rq rs, sys_run p s0 ((is ++ [i]) ++ is2) m0 m rq rs -> i_req_en i = true ->
  Forall (fun j => ready j = true) is2 ->
  let tr1 := trace_of p s0 (is ++ [i]) in let s1 := fst (run p s0 (is ++ [i])) in let tr2 := trace_of p s1 is2 in
  (length (accepted tr1) <= length (responses (tr1 ++ tr2)))%nat <->
  (service p (i_req i) (made p (x_after p x_empty (accepted (trace_of p s0 is))) (i_req i)) <= productive_cycles tr1 tr2)%nat.
Proof.
  intros is2 is i s0 m0 m rq rs R RE F tr1 s1 tr2. split; intros LE.
  - destruct (answered_late _ _ _ _ _ _ _ _ R RE F) as [LT|H]; [fold tr1 s1 tr2 in LT; lia | exact H].
  - destruct (Nat.lt_ge_cases (length (responses (tr1 ++ tr2))) (length (accepted tr1))) as [UN|AN]; auto. exfalso.
    destruct (service_inv p W is2 is i s0 m0 m rq rs R RE UN) as (m9 & rq9 & rs9 & a9 & ST9 & CU9 & a & x & ST & LF & _ & EQ & _).
    fold tr1 s1 tr2 in ST, LF, EQ, ST9. specialize (EQ F).
    destruct (cur_exact _ _ _ _ _ _ _ _ _ _ _ _ ST9 CU9) as (A9 & EA & _ & _ & _ & EX).
    unfold tr1 in EA. rewrite trace_snoc, accepted_app, acc_one in EA. cbn [fst] in EA. rewrite RE in EA. apply app_inj_tail in EA. destruct EA as [<- _].
    assert (MD : made p (x_after p x_empty (accepted (trace_of p s0 is))) (i_req i) = length (tl_reqs p (a_c a9) (i_req i))) by (unfold made; rewrite <- EX, map_length; auto).
    rewrite MD in LE. pose proof (left_pos p _ _ _ _ _ _ _ _ LF). pose proof (lft_tk p _ _ _ _ _ _ _ _ LF) as TK. unfold len in TK.
    pose proof (service_mono p (i_req i) (length (memreqs tr2)) (length (tl_reqs p (a_c a9) (i_req i))) ltac:(lia)) as SM. rewrite <- svc_ok in EQ. lia.
Qed.
End P.
