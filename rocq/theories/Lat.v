(** A memory of fixed latency (C63). *)
From Coq Require Import NArith PeanoNat List Bool Lia.
From Verif Require Import Bits Params Msg Units Rtl Mem Tl Traffic ParamsProofs RtlLemmas RefineInv RefineStall RefineReq RefineAdv1 RefineAdv2 RefineAdv3
  RefineProofs Spec System SysProofs SysFacts UnitProofs ViewDefs ViewOps ViewProofs Facts1 Facts2 MetaProofs PendProofs TrafProofs Facts3 Progress Latency Hide Obliv Proto LiveSpec Live TimeSpec Service Service2 RunTime
  ExactSpec Exact Exact2 ScheduleSpec Schedule Schedule2 LatSpec.
Import ListNotations.
Open Scope N_scope.

Section P.
Variable p : params.
Hypothesis W : wf_params p.

(** *** Where the cache is, seen from outside *)
Lemma mem_count : forall m0 s n m rq rs tr a, stok p m0 s n m rq rs tr a ->
  (length (memreqs tr) + (match a_cur a with Some u => length (u_todo u) | None => 0 end) = length (concat (predict p (accepted tr))))%nat.
Proof.
  intros m0 s n m rq rs tr a ST. destruct (stok_J p _ _ _ _ _ _ _ _ ST) as [JA _].
  destruct (J_hist p _ _ _ _ _ _ _ _ JA) as (A0 & c1 & mb & Q & pd' & HH & EP & EC & C).
  destruct C as [(EA & CU & _ & _ & _ & F) | (r & ex & qs & todo & out & l & E & WF & CU & TR & _ & _ & _ & _ & F)]; rewrite CU.
  - destruct (hist_exact p W _ _ _ _ _ _ HH _ F) as [_ X]. rewrite EA, <- X, map_length. lia.
  - rewrite E. unfold predict. rewrite x_run_app, concat_app, app_length. fold (predict p A0). cbn [x_run concat]. rewrite app_nil_r.
    apply Forall2_app_inv_l in F. destruct F as (S1 & S2 & F1 & F2 & ES).
    destruct (hist_exact p W _ _ _ _ _ _ HH _ F1) as (X & X2). destruct (hist_flat p W _ _ _ _ _ _ HH) as (I & _).
    destruct (xstep p W _ c1 mb r X I WF) as [X1 _]. rewrite <- X1, <- X2, !map_length, ES, app_length, TR, !app_length.
    apply Forall2_len in F2. rewrite map_length, app_length in F2. cbn [u_todo]. lia.
Qed.
Lemma predict_snoc : forall A r, length (concat (predict p (A ++ [r]))) = (length (concat (predict p A)) + made p (x_after p x_empty A) r)%nat.
Proof. intros A r. unfold predict. rewrite x_run_app, concat_app, app_length. cbn [x_run concat]. rewrite app_nil_r. reflexivity. Qed.

(** The second memory request of a READ, WRITE or AMO follows the first at once; FLUSH waits for every answer. *)
Lemma cur_burst : forall s a r todo out l k, phase p s a -> a_cur a = Some (mkCur r todo out l) ->
  (k + length todo = length (tl_reqs p (a_c a) r))%nat ->
  (cq_type r = T_FLUSH -> (length out <= 1)%nat) /\
  (cq_type r <> T_FLUSH -> (1 <= k)%nat -> todo <> [] -> exists q, mem2 p s = Some q) /\
  (cq_type r <> T_FLUSH -> (length (tl_reqs p (a_c a) r) <= 2)%nat).
Proof.
  intros s a r todo out l k PH CU KT. split; [|split; [|apply tl_reqs_le2]].
  - intros TY. destruct PH as [P | r0 P | r0 P | r0 P | r0 P | r0 kk P | r0 P | r0 P | r0 kk P | r0 kk P | r0 kk P].
    + rewrite (id_cur _ _ _ P) in CU. discriminate.
    + pose proof (rq_cur _ _ _ _ P) as X. rewrite CU in X. inversion X; subst. cbn; lia.
    + pose proof (ev_cur _ _ _ _ P) as X. rewrite CU in X. inversion X; subst. cbn; lia.
    + exfalso. pose proof (wt_ty _ _ _ _ P) as T.
      assert (r0 = r).
      { destruct (wt_cur _ _ _ _ P) as [(_ & _ & _ & ? & ? & _ & X) | [(_ & _ & ? & ? & ? & _ & _ & X) | (_ & _ & X)]]; rewrite X in CU; inversion CU; auto. }
      subst r0. rewrite TY in T. discriminate T.
    + destruct (rf_cur _ _ _ _ P) as (l0 & X & _). rewrite CU in X. inversion X; subst. cbn; lia.
    + pose proof (iv_cur _ _ _ _ _ P) as X. rewrite CU in X. inversion X; subst. cbn; lia.
    + pose proof (il_cur _ _ _ _ P) as X. rewrite CU in X. inversion X; subst. cbn; lia.
    + pose proof (fs_cur _ _ _ _ P) as X. rewrite CU in X. inversion X; subst. cbn; lia.
    + destruct (fr_cur _ _ _ _ _ P) as (l0 & X). rewrite CU in X. inversion X; subst. cbn; lia.
    + destruct (fw_cur _ _ _ _ _ P) as [(o & e & l0 & _ & _ & _ & _ & X & _) | [(q' & l0 & T2 & _ & T & X & _) | (l0 & _ & _ & _ & X & _)]]; rewrite CU in X; inversion X; subst; cbn; lia.
    + destruct (fx_cur _ _ _ _ _ P) as (l0 & X). rewrite CU in X. inversion X; subst. cbn; lia.
  - intros TY K1 TN. pose proof (tl_reqs_le2 p (a_c a) r TY) as LE2.
    destruct PH as [P | r0 P | r0 P | r0 P | r0 P | r0 kk P | r0 P | r0 P | r0 kk P | r0 kk P | r0 kk P].
    + rewrite (id_cur _ _ _ P) in CU. discriminate.
    + pose proof (rq_cur _ _ _ _ P) as X. rewrite CU in X. inversion X; subst. lia.
    + pose proof (ev_cur _ _ _ _ P) as X. rewrite CU in X. inversion X; subst. cbn [length] in KT. lia.
    + destruct (wt_cur _ _ _ _ P) as [(M & _) | [(_ & _ & ? & ? & ? & _ & _ & X) | (_ & _ & X)]]; [eauto | |]; rewrite CU in X; inversion X; subst; congruence.
    + destruct (rf_cur _ _ _ _ P) as (l0 & X & _). rewrite CU in X. inversion X; subst. congruence.
    + pose proof (iv_cur _ _ _ _ _ P) as X. rewrite CU in X. inversion X; subst. congruence.
    + pose proof (il_cur _ _ _ _ P) as X. rewrite CU in X. inversion X; subst. congruence.
    + exfalso. pose proof (fs_cur _ _ _ _ P) as X. rewrite CU in X. inversion X; subst. apply TY. exact (fs_ty _ _ _ _ P).
    + exfalso. destruct (fr_cur _ _ _ _ _ P) as (l0 & X). rewrite CU in X. inversion X; subst. apply TY. exact (fl_ty _ _ _ _ _ _ (fr_c _ _ _ _ _ P)).
    + exfalso. apply TY. assert (r0 = r).
      { destruct (fw_cur _ _ _ _ _ P) as [(o & e & l0 & _ & _ & _ & _ & X & _) | [(q' & l0 & T2 & _ & T & X & _) | (l0 & _ & _ & _ & X & _)]]; rewrite CU in X; inversion X; auto. }
      subst r0. exact (fl_ty _ _ _ _ _ _ (fw_c _ _ _ _ _ P)).
    + exfalso. destruct (fx_cur _ _ _ _ _ P) as (l0 & X). rewrite CU in X. inversion X; subst. apply TY. exact (fl_ty _ _ _ _ _ _ (fx_c _ _ _ _ _ P)).
Qed.

(** What is known after a request is accepted, while no other is. *)
Theorem sys_stage : forall is2 is i s0 m0 m rq rs, sys_run p s0 ((is ++ [i]) ++ is2) m0 m rq rs -> i_req_en i = true ->
  let tr1 := trace_of p s0 (is ++ [i]) in let s1 := fst (run p s0 (is ++ [i])) in let tr2 := trace_of p s1 is2 in
  let sx := fst (run p s1 is2) in let r := i_req i in
  let n := length (memreqs tr2) in let M := made p (x_after p x_empty (accepted (trace_of p s0 is))) r in
  accepted tr2 = [] ->
  outstanding tr1 = [] /\ (n <= M)%nat /\ (cq_type r <> T_FLUSH -> (M <= 2)%nat) /\
  (cq_type r = T_FLUSH -> (length (outstanding (tr1 ++ tr2)) <= 1)%nat) /\
  (cq_type r <> T_FLUSH -> (1 <= n < M)%nat -> forall j, ready j = true -> o_mreq (output p sx j) <> None) /\
  (forall j, ready j = true -> o_req_rdy (output p sx j) = true -> n = M /\ outstanding (tr1 ++ tr2) = [] /\ o_mreq (output p sx j) = None) /\
  ((length (accepted tr1) <= length (responses (tr1 ++ tr2)))%nat -> n = M /\ outstanding (tr1 ++ tr2) = []).
Proof.
  intros is2 is i s0 m0 m rq rs R RE tr1 s1 tr2 sx r n M NA.
  assert (TX : trace_of p s0 ((is ++ [i]) ++ is2) = tr1 ++ tr2) by (unfold tr1, tr2, s1; apply trace_app).
  assert (ES : fst (run p s0 ((is ++ [i]) ++ is2)) = sx) by (unfold sx, s1; rewrite (run_app p (is ++ [i]) is2 s0); auto).
  assert (A1 : accepted tr1 = accepted (trace_of p s0 is) ++ [r]) by (apply acc_snoc; auto).
  assert (A2 : accepted (tr1 ++ tr2) = accepted tr1) by (rewrite accepted_app, NA, app_nil_r; auto).
  destruct (sys_app p _ _ _ _ _ _ _ R) as (m1 & rq1 & rs1 & R1 & _ & _).
  destruct (accept_lft p W _ _ _ _ _ _ _ R1 RE) as (a1 & ST1 & CU1 & _). fold tr1 s1 r in ST1, CU1.
  destruct (accept_exact p W _ _ _ _ _ _ _ _ _ ST1 CU1) as (A0 & EA & EX). rewrite A1 in EA. apply app_inj_tail in EA. destruct EA as [<- _].
  assert (MD : M = length (tl_reqs p (a_c a1) r)) by (unfold M, made; rewrite <- EX, map_length; auto).
  pose proof (mem_count _ _ _ _ _ _ _ _ ST1) as C1. rewrite CU1, A1, predict_snoc in C1. cbn [u_todo] in C1. fold M in C1. rewrite <- MD in C1.
  destruct (sys_state p W _ _ _ _ _ _ R) as (a & ST). rewrite TX, ES in ST.
  pose proof (mem_count _ _ _ _ _ _ _ _ ST) as C2. rewrite A2, A1, predict_snoc, memreqs_app, app_length in C2. fold M n in C2.
  destruct (stok_J p _ _ _ _ _ _ _ _ ST) as [_ OT].
  pose proof (counts p _ _ _ _ _ _ _ _ ST) as CN. rewrite A2 in CN.
  assert (PH : phase p sx a).
  { inversion ST as [c0 k CS PI NK Z1 Z2 Z3 Z4 EM EQ2 ES2 EAA | a0 PH NK JA OA EAA]; auto. rewrite A2, A1 in Z1. destruct (accepted (trace_of p s0 is)); discriminate Z1. }
  split.
  { destruct (stok_J p _ _ _ _ _ _ _ _ ST1) as [_ OT1]. rewrite OT1. exact (outst_cur _ _ _ _ _ CU1). }
  destruct (a_cur a) as [[rc todo out l]|] eqn:CU; cbn [u_todo] in C2.
  - destruct (cur_exact p W _ _ _ _ _ _ _ _ _ _ _ _ ST CU) as (A3 & EA & WF & U & PE & EX3). rewrite A2, A1 in EA. apply app_inj_tail in EA. destruct EA as [<- <-].
    assert (M3 : M = length (tl_reqs p (a_c a) r)) by (unfold M, made; rewrite <- EX3, map_length; auto).
    assert (KT : (n + length todo = length (tl_reqs p (a_c a) r))%nat) by lia.
    destruct (cur_burst _ _ _ _ _ _ n PH CU KT) as (B1 & B2 & B3).
    pose proof (outst_cur _ _ _ _ _ CU) as OC. rewrite OT, OC.
    split; [lia|]. split; [rewrite M3; auto|]. split; [auto|]. split; [|split].
    + intros TY K j RJ. destruct (B2 TY ltac:(lia)) as (q & M2); [intros ->; cbn [length] in KT; lia|].
      destruct (both_idle_rdy j RJ) as [J1 J2]. destruct (out_nostall p sx j (both_ready sx j J1 J2)) as [_ OM]. rewrite OM, M2. discriminate.
    + intros j RJ RY. pose proof (both_idle_rdy j RJ) as [J1 J2].
      destruct (out_nostall p sx j (both_ready sx j J1 J2)) as [_ OM].
      destruct (J_hist p _ _ _ _ _ _ _ _ (proj1 (stok_J p _ _ _ _ _ _ _ _ ST))) as (A4 & c1 & mb & Q & pd' & HH & EP & EC & C).
      destruct C as [(_ & X & _) | (r4 & ex & qs & todo4 & out4 & l4 & E & WF4 & CU4 & TR & _ & _ & LO & _ & _)]; [congruence|].
      rewrite CU in CU4. inversion CU4; subst r4 todo4 out4 l4 c1. apply (f_equal (@length _)) in TR. rewrite !app_length in TR. rewrite app_length in LO.
      destruct (cur_ready p _ _ _ _ _ _ (N.of_nat n) PH CU) as [(RW & HI & PQ) | (NR & _)]; [unfold len; lia | unfold len; lia | | cbn [output o_req_rdy] in RY; rewrite NR in RY; discriminate].
      pose proof (rq_cur _ _ _ _ PQ) as X. rewrite CU in X. inversion X; subst out l.
      assert (Z : tl_reqs p (a_c a) r = []).
      { destruct (rw_type _ RW) as (N1 & N2 & N3). unfold tl_reqs. rewrite N2, N3.
        pose proof (hit_noevict p sx _ r (req_looking p _ _ _ PQ)) as NEV. unfold tl_isamo. rewrite NEV, HI, N1; auto. }
      rewrite Z in M3. cbn [length] in M3. rewrite OM, (rq_mem2 _ _ _ _ PQ). repeat split; auto; lia.
    + intros AN. lia.
  - rewrite OT. assert (OC : a_outst a = []) by (unfold a_outst; rewrite CU; auto). rewrite OC.
    assert (NM : n = M) by lia. split; [lia|].
    split. { intros TY. rewrite MD. apply tl_reqs_le2; auto. }
    split; [cbn; lia|]. split; [lia|]. split.
    + intros j RJ _. pose proof (phase_none p _ _ PH CU) as PI. destruct (both_idle_rdy j RJ) as [J1 J2].
      destruct (out_nostall p sx j (both_ready sx j J1 J2)) as [_ OM]. rewrite OM, (id_mem2 _ _ _ PI). auto.
    + auto.
Qed.

Theorem proto_stage : forall is2 is i s0, proto_run p s0 ((is ++ [i]) ++ is2) -> i_req_en i = true ->
  let tr1 := trace_of p s0 (is ++ [i]) in let s1 := fst (run p s0 (is ++ [i])) in let tr2 := trace_of p s1 is2 in
  let sx := fst (run p s1 is2) in let r := i_req i in
  let n := length (memreqs tr2) in let M := made p (x_after p x_empty (accepted (trace_of p s0 is))) r in
  accepted tr2 = [] ->
  outstanding tr1 = [] /\ (n <= M)%nat /\ (cq_type r <> T_FLUSH -> (M <= 2)%nat) /\
  (cq_type r = T_FLUSH -> (length (outstanding (tr1 ++ tr2)) <= 1)%nat) /\
  (cq_type r <> T_FLUSH -> (1 <= n < M)%nat -> forall j, ready j = true -> is_some (o_mreq (output p sx j)) = true) /\
  (forall j, ready j = true -> o_req_rdy (output p sx j) = true -> n = M /\ outstanding (tr1 ++ tr2) = [] /\ o_mreq (output p sx j) = None) /\
  ((length (accepted tr1) <= length (responses (tr1 ++ tr2)))%nat -> n = M /\ outstanding (tr1 ++ tr2) = []).
Proof.
  intros is2 is i s0 P RE tr1 s1 tr2 sx r n M NA.
  destruct (lift2m p (fun _ => 0) _ _ _ _ P) as (is' & i' & is2' & m & rq & S & HI & H3 & HF & H1 & H2 & AC). fold tr1 s1 tr2 in H1, H2, AC.
  destruct (hide_inE _ _ HI) as (EN & ET & _). rewrite RE in EN.
  destruct (hide_len _ _ H2) as (R2 & A2 & M2). destruct (hide_len _ _ H1) as (R1 & A1 & _). rewrite NA in A2.
  assert (NA' : accepted (trace_of p (fst (run p s0 (is' ++ [i']))) is2') = []) by (apply length_zero_iff_nil; exact A2).
  pose proof (sys_stage is2' is' i' s0 _ _ _ _ S EN NA') as B. cbv zeta in B.
  unfold tr1 in AC. rewrite !acc_snoc in AC by auto. apply app_inj_tail in AC. destruct AC as [AC1 AC2].
  set (t1 := trace_of p s0 (is' ++ [i'])) in *. set (t2 := trace_of p (fst (run p s0 (is' ++ [i']))) is2') in *.
  rewrite AC1, AC2, M2, A1 in B. fold r n M in B.
  assert (H12 : map hide_io (t1 ++ t2) = map hide_io (tr1 ++ tr2)) by (rewrite !map_app, H1, H2; auto).
  destruct (hide_len _ _ H12) as (R12 & _). rewrite R12 in B.
  pose proof (hide_outst _ _ H12) as HO.
  assert (HOL : length (outstanding (t1 ++ t2)) = length (outstanding (tr1 ++ tr2))) by (apply (f_equal (@length _)) in HO; rewrite !map_length in HO; auto).
  assert (HON : outstanding (t1 ++ t2) = [] -> outstanding (tr1 ++ tr2) = []) by (intros X; rewrite X in HOL; apply length_zero_iff_nil; auto).
  assert (HA : map hide_in ((is' ++ [i']) ++ is2') = map hide_in ((is ++ [i]) ++ is2)) by (rewrite !map_app, H3, HF; cbn [map]; rewrite HI; auto).
  destruct (oblivious p _ _ s0 s0 (ctl_refl s0) HA) as [_ CE].
  rewrite (run_app p (is' ++ [i']) is2' s0), (run_app p (is ++ [i]) is2 s0) in CE. fold s1 in CE.
  set (sx' := fst (run p (fst (run p s0 (is' ++ [i']))) is2')) in *. change (fst (let (s', tr) := run p s1 is2 in (s', tr))) with sx in CE.
  assert (OJ : forall j, hide_out (output p sx' j) = hide_out (output p sx j)).
  { intros j. apply (obl_out p _ _ j j); auto. }
  assert (OM : forall j, is_some (o_mreq (output p sx' j)) = is_some (o_mreq (output p sx j))).
  { intros j. pose proof (f_equal o_mreq (OJ j)) as X. cbn [hide_out o_mreq] in X. destruct (o_mreq (output p sx' j)), (o_mreq (output p sx j)); cbn in X; auto; discriminate. }
  assert (OY : forall j, o_req_rdy (output p sx' j) = o_req_rdy (output p sx j)) by (intros j; exact (f_equal o_req_rdy (OJ j))).
  destruct B as (B0 & B1 & B2 & B3 & B4 & B5 & B6). rewrite HOL in B3.
  split.
  { pose proof (hide_outst _ _ H1) as HO1. rewrite B0 in HO1. destruct (outstanding tr1); [auto|discriminate HO1]. }
  split; auto. split; auto. split; auto. split; [|split].
  - intros TY K j RJ. rewrite <- OM. specialize (B4 TY K j RJ). destruct (o_mreq (output p sx' j)); auto.
  - intros j RJ RY. rewrite <- OY in RY. destruct (B5 j RJ RY) as (E1 & E2 & E3). specialize (OM j). rewrite E3 in OM.
    split; auto. split; auto. destruct (o_mreq (output p sx j)); auto; discriminate.
  - intros X. destruct (B6 X). auto.
Qed.
End P.
