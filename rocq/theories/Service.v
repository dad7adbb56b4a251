(** C54: the time a request takes. *)
From Coq Require Import NArith PeanoNat List Bool Lia.
From Verif Require Import Bits Params Msg Units Rtl Mem Tl Traffic ParamsProofs RtlLemmas RefineInv RefineStall RefineReq RefineAdv1 RefineAdv2 RefineAdv3
  RefineProofs Spec System SysProofs SysFacts Facts1 Facts2 TrafProofs Facts3 Progress TimeSpec.
Import ListNotations.
Open Scope N_scope.

Section P.
Variable p : params.
Hypothesis W : wf_params p.

Definition svc (r : creq) (k : N) : N :=
  if cq_type r =? T_INV then total_lines p + 3
  else if cq_type r =? T_FLUSH then total_lines p + 3 + 4 * k
  else if k =? 0 then 2 else if is_amo (cq_type r) then 5 + k else 6 + k.
Lemma svc_ok : forall r n, N.of_nat (service p r n) = svc r (N.of_nat n).
Proof.
  intros r n. unfold service, svc. destruct (cq_type r =? T_INV); [lia|]. destruct (cq_type r =? T_FLUSH); [lia|].
  destruct n as [|n]; [reflexivity|]. destruct (N.eqb_spec (N.of_nat (S n)) 0); [lia|]. destruct (is_amo (cq_type r)); lia.
Qed.

Definition xr (r : creq) : N := if is_amo (cq_type r) then 3 else 4.
(** cycles left for the current request [r] if it makes no further memory
    requests; [n] requests are outstanding, [k] have been sent for [r] *)
Definition crem (r : creq) (s : st) (n k : N) : N :=
  match t1 s with
  | TR_READ_REQ | TR_WRITE_REQ | TR_AMO_REQ => if ev2 s then 1 else 2
  | TR_FLUSH_START => total_lines p + 3
  | TR_FLUSH_READ | TR_FLUSH_WRITE => fline p s + 3
  | _ =>
    match fsm s with
    | F_READY => if mr_val s then xr r else match mem2 p s with Some _ => if k =? 0 then 1 else xr r + 1 | None => xr r + n end
    | F_INV => 4 + ctr s
    | F_FLUSH_WAIT => if mrv s then fline p s + 4
                      else match mem2 p s with Some _ => fline p s + 2 | None => fline p s + 5 end
    | _ => 3
    end
  end.
Lemma crem_pos : forall r s n k, 1 <= crem r s n k.
Proof.
  intros r s n k. unfold crem, xr. destruct (t1 s); try (destruct (ev2 s)); try lia; destruct (fsm s); try lia;
    try (destruct (mr_val s)); try (destruct (mrv s)); try (destruct (mem2 p s)); try (destruct (k =? 0)); destruct (is_amo (cq_type r)); lia.
Qed.

Lemma acyc_cur : forall a i o a' r todo out l, acyc p a i o a' -> a_cur a = Some (mkCur r todo out l) ->
  (i_req_en i = false /\ a_c a' = a_c a /\ exists todo' out' l', a_cur a' = Some (mkCur r todo' out' l') /\
     (length todo' + length (ol (o_mreq o)) = length todo)%nat /\
     (length out' <= length out + length (ol (o_mreq o)))%nat) \/
  (o_mreq o = None /\ todo = [] /\ (out = [] \/ (i_mresp_en i = true)) /\ (i_req_en i = false -> a_cur a' = None)).
Proof.
  intros a i o a' r todo out l (a1 & a2 & a3 & R & S & D & A) CU.
  assert (R1 : exists out1 l1, a1 = mkA (a_c a) (Some (mkCur r todo out1 l1)) (a_pend a) /\
     (length out1 <= length out)%nat /\ (out1 = [] -> out = [] \/ i_mresp_en i = true)).
  { destruct a as [c cu pd]. cbn [a_cur a_c a_pend] in *. subst cu. unfold o_recv in R. destruct (i_mresp_en i) eqn:ME.
    - inversion R; subst. exists out0, (mr_data (i_mresp i)). split; auto. cbn. split; auto.
    - subst. exists out, l. auto. }
  destruct R1 as (out1 & l1 & -> & L1 & E1).
  assert (R2 : exists todo2 out2 pd2, a2 = mkA (a_c a) (Some (mkCur r todo2 out2 l1)) pd2 /\
     (length todo2 + length (ol (o_mreq o)) = length todo)%nat /\ (length out2 <= length out + length (ol (o_mreq o)))%nat /\
     (out2 = [] -> o_mreq o = None /\ out1 = [])).
  { unfold o_send in S. destruct (o_mreq o) as [m|], (o_resp o) as [y|]; try contradiction.
    - inversion S; subst. do 3 eexists. split; [reflexivity|]. cbn [ol length]. rewrite app_length. cbn [length].
      split; [lia|]. split; [lia|]. intros X. destruct out1; discriminate.
    - inversion S; subst. do 3 eexists. split; [reflexivity|]. cbn [ol length]. split; [lia|]. split; [lia|]. auto.
    - subst. do 3 eexists. split; [reflexivity|]. cbn [ol length]. split; [lia|]. split; [lia|]. auto. }
  destruct R2 as (todo2 & out2 & pd2 & -> & L2 & L3 & E2).
  destruct D as [D | ->].
  - right. inversion D; subst. destruct (E2 eq_refl) as [EM EO]. rewrite EM in *. cbn in L2. split; auto.
    split; [destruct todo; [auto|discriminate L2]|]. split; auto.
    unfold o_acc in A. intros RE. rewrite RE in A. subst. auto.
  - left. unfold o_acc in A. destruct (i_req_en i) eqn:RE.
    + inversion A.
    + subst. split; auto. split; auto. exists todo2, out2, l1. split; auto.
Qed.

Lemma len_ol : forall (o : option mreq), N.of_nat (length (ol o)) = if is_some o then 1 else 0.
Proof. destruct o; auto. Qed.

(** the phases in which a request is finished *)
Lemma phase_none : forall s a, phase p s a -> a_cur a = None -> ph_idle p s a.
Proof. apply phase_idle. Qed.

Lemma inv_wait : forall s a u, phase p s a -> t1 s = TR_INVALID \/ t1 s = TR_CLEAN_HIT -> a_cur a = Some u -> ph_wait p s a (u_req u).
Proof.
  intros s a u PH T1 CU.
  destruct PH as [P | r' P | r' P | r' P | r' P | r' k0 P | r' P | r' P | r' k0 P | r' k0 P | r' k0 P].
  - rewrite (id_cur _ _ _ P) in CU. discriminate.
  - exfalso. pose proof (rq_t1 _ _ _ _ P) as X. destruct (req_trans_cases _ (rq_ty _ _ _ _ P)) as [(_ & Y & _) | [(_ & Y & _) | (_ & Y & _)]]; destruct T1; congruence.
  - exfalso. pose proof (ev_t1 _ _ _ _ P) as X. destruct (req_trans_cases _ (ev_ty _ _ _ _ P)) as [(_ & Y & _) | [(_ & Y & _) | (_ & Y & _)]]; destruct T1; congruence.
  - replace (u_req u) with r'; auto.
    destruct (wt_cur _ _ _ _ P) as [(_ & _ & _ & ? & ? & _ & X) | [(_ & _ & ? & ? & ? & _ & _ & X) | (_ & _ & X)]]; rewrite X in CU; inversion CU; auto.
  - rewrite (rf_t1 _ _ _ _ P) in T1. destruct T1; discriminate.
  - destruct (iv_t1 _ _ _ _ _ P) as [(X & _) | (X & _)]; destruct T1; congruence.
  - rewrite (il_t1 _ _ _ _ P) in T1. destruct T1; discriminate.
  - rewrite (fs_t1 _ _ _ _ P) in T1. destruct T1; discriminate.
  - rewrite (fl_t1 _ _ _ _ _ _ (fr_c _ _ _ _ _ P)) in T1. destruct T1; discriminate.
  - rewrite (fl_t1 _ _ _ _ _ _ (fw_c _ _ _ _ _ P)) in T1. destruct T1; discriminate.
  - rewrite (fl_t1 _ _ _ _ _ _ (fx_c _ _ _ _ _ P)) in T1. destruct T1; discriminate.
Qed.
(** ... with requests still to be sent: the main request is in M2 *)
Lemma inv_wait_todo : forall s a r todo out l, phase p s a -> t1 s = TR_INVALID -> a_cur a = Some (mkCur r todo out l) -> todo <> [] ->
  exists q, mem2 p s = Some q /\ fsm s = F_READY /\ mr_val s = false.
Proof.
  intros s a r todo out l PH T1 CU TD. pose proof (inv_wait _ _ _ PH (or_introl T1) CU) as P. cbn [u_req] in P.
  destruct (wt_cur _ _ _ _ P) as [(M2 & _ & MV & _) | [(_ & _ & ? & ? & ? & _ & _ & X) | (_ & _ & X)]]; [|congruence..].
  eexists. split; eauto. split; auto. apply (wt_fsm _ _ _ _ P).
Qed.
Lemma reply_idle : forall s a, phase p s a -> reply_t (t1 s) = true -> a_cur a = None.
Proof.
  intros s a PH H5. destruct PH as [P | r' P | r' P | r' P | r' P | r' k0 P | r' P | r' P | r' k0 P | r' k0 P | r' k0 P].
  - apply (id_cur _ _ _ P).
  - rewrite (rq_t1 _ _ _ _ P) in H5. exfalso. destruct (req_trans_cases _ (rq_ty _ _ _ _ P)) as [(_ & X & _) | [(_ & X & _) | (_ & X & _)]]; rewrite X in H5; discriminate.
  - rewrite (ev_t1 _ _ _ _ P) in H5. exfalso. destruct (req_trans_cases _ (ev_ty _ _ _ _ P)) as [(_ & X & _) | [(_ & X & _) | (_ & X & _)]]; rewrite X in H5; discriminate.
  - rewrite (wt_t1 _ _ _ _ P) in H5. discriminate.
  - rewrite (rf_t1 _ _ _ _ P) in H5. discriminate.
  - destruct (iv_t1 _ _ _ _ _ P) as [(X & _) | (X & _)]; rewrite X in H5; discriminate.
  - rewrite (il_t1 _ _ _ _ P) in H5. discriminate.
  - rewrite (fs_t1 _ _ _ _ P) in H5. discriminate.
  - rewrite (fl_t1 _ _ _ _ _ _ (fr_c _ _ _ _ _ P)) in H5. discriminate.
  - rewrite (fl_t1 _ _ _ _ _ _ (fw_c _ _ _ _ _ P)) in H5. discriminate.
  - rewrite (fl_t1 _ _ _ _ _ _ (fx_c _ _ _ _ _ P)) in H5. discriminate.
Qed.

Definition memok (out : list mreq) (i : inp) : N := match out with [] => 1 | _ => if i_mresp_en i then 1 else 0 end.

Lemma cur_advance : forall s a i a' r todo out l k, phase p s a -> legal p s (a_outst a) i -> ostall2 s i = false ->
  acyc p a i (output p s i) a' -> phase p (next p s i) a' -> a_cur a = Some (mkCur r todo out l) ->
  k + len todo = len (tl_reqs p (a_c a) r) -> len out <= k ->
  let o := output p s i in let k' := k + (if is_some (o_mreq o) then 1 else 0) in
  (exists todo' out' l', a_cur a' = Some (mkCur r todo' out' l') /\ a_c a' = a_c a /\ i_req_en i = false /\
     k' + len todo' = len (tl_reqs p (a_c a) r) /\ len out' <= k' /\
     crem r (next p s i) (len out') k' + memok out i + svc r k = crem r s (len out) k + svc r k') \/
  (o_mreq o = None /\ memok out i = 1 /\ i_req_en i = false /\ a_cur a' = None /\ is_some (resp1 p (next p s i)) = true /\ crem r s (len out) k = 3) \/
  (o_mreq o = None /\ memok out i = 1 /\ crem r s (len out) k = 2 /\
     (i_req_en i = true \/ (a_cur a' = None /\ is_some (resp1 p (next p s i)) = false))).
Proof.
  intros s a i a' r todo out l k PH LG S AC PH' CU KT KO o k'.
  pose proof (outst_cur _ _ _ _ _ CU) as OA. pose proof (acyc_outst p _ _ _ _ AC) as ON.
  destruct (out_nostall p s i S) as [OR OM]. fold o in OR, OM, AC, ON.
  pose proof (acyc_cur _ _ _ _ _ _ _ _ AC CU) as CASES.
  pose proof (total_ge2 p W) as G2.
  (* the request stays *)
  assert (STAY : crem r (next p s i) (len (outst_next out i o)) k' + memok out i + svc r k = crem r s (len out) k + svc r k' ->
     (i_req_en i = false /\ a_c a' = a_c a /\ exists todo' out' l', a_cur a' = Some (mkCur r todo' out' l') /\
       (length todo' + length (ol (o_mreq o)) = length todo)%nat /\
       (length out' <= length out + length (ol (o_mreq o)))%nat) ->
     exists todo' out' l', a_cur a' = Some (mkCur r todo' out' l') /\ a_c a' = a_c a /\ i_req_en i = false /\
     k' + len todo' = len (tl_reqs p (a_c a) r) /\ len out' <= k' /\
     crem r (next p s i) (len out') k' + memok out i + svc r k = crem r s (len out) k + svc r k').
  { intros EQ (RE & EC & todo' & out' & l' & CU' & L1 & L2). exists todo', out', l'.
    pose proof (outst_cur _ _ _ _ _ CU') as OA'. rewrite OA', OA in ON. rewrite <- ON in EQ.
    pose proof (len_ol (o_mreq o)) as LO. unfold k' in *.
    repeat split; auto; unfold len in *; try lia. }
  (* finished, response in M1 *)
  assert (REP : o_mreq o = None -> memok out i = 1 -> i_req_en i = false -> crem r s (len out) k = 3 -> reply_t (t1 (next p s i)) = true ->
     (o_mreq o = None /\ memok out i = 1 /\ i_req_en i = false /\ a_cur a' = None /\ is_some (resp1 p (next p s i)) = true /\ crem r s (len out) k = 3)).
  { intros H1 H2 H3 H4 H5. repeat split; auto; [|apply reply_resp1; auto]. eapply reply_idle; eauto. }
  (* it cannot finish into a state that is not idle *)
  assert (NOT : i_req_en i = false -> idle_t (t1 (next p s i)) = false ->
     ~ (o_mreq o = None /\ todo = [] /\ (out = [] \/ (i_mresp_en i = true)) /\ (i_req_en i = false -> a_cur a' = None))).
  { intros RE NI (_ & _ & _ & X). specialize (X RE). pose proof (id_t1 _ _ _ (phase_none _ _ PH' X)). congruence. }
  assert (NOD : todo <> [] -> ~ (o_mreq o = None /\ todo = [] /\ (out = [] \/ (i_mresp_en i = true)) /\ (i_req_en i = false -> a_cur a' = None))).
  { intros H (_ & X & _). contradiction. }
  destruct PH as [P | r0 P | r0 P | r0 P | r0 P | r0 kk P | r0 P | r0 P | r0 kk P | r0 kk P | r0 kk P].
  - rewrite (id_cur _ _ _ P) in CU. discriminate.
  - assert (r0 = r) by (rewrite (rq_cur _ _ _ _ P) in CU; inversion CU; auto). subst r0.
    destruct P. assert (OB : a_outst a = []) by (eapply outst_cur; eauto). clear OA. rewrite rq_cur in CU. inversion CU; subst todo out l. clear CU.
    assert (K0 : k = 0) by lia. subst k. clear KT KO. rewrite OB in LG.
    assert (NM : i_mresp_en i = false) by (eapply noresp; eauto).
    assert (LK : looking p s (a_c a) r) by (constructor; auto).
    assert (FI : fsm s <> F_INIT) by (rewrite rq_fsm; discriminate).
    rewrite rq_mem2 in OM. assert (KK : k' = 0) by (unfold k'; rewrite OM; auto). clearbody k'. subst k'. rewrite OM in *.
    assert (CC : crem r s (len []) 0 = 2).
    { unfold crem. rewrite rq_t1, rq_ev2.
      destruct (req_trans_cases _ rq_ty) as [(_ & -> & _) | [(_ & -> & _) | (_ & -> & _)]]; auto. }
    rewrite CC in *.
    destruct (is_evict1 p s) eqn:EV.
    + destruct (ae_regs p s i) as (E1 & E2 & E3 & E4 & E5 & E6 & E7 & E8); auto.
      assert (TE : tl_evict p (a_c a) r = true) by (rewrite <- (lw_evict p s _ r LK); auto).
      assert (RE : i_req_en i = false).
      { eapply noreq_alloc; eauto. rewrite (lw_alloc p s _ r LK), TE. auto. }
      left. apply STAY.
      * unfold crem, memok. rewrite E7, rq_t1, (an_ev2 p s i S), EV.
        destruct (req_trans_cases _ rq_ty) as [(_ & -> & _) | [(_ & -> & _) | (_ & -> & _)]]; lia.
      * destruct CASES as [C | C]; [exact C|]. exfalso. revert C. apply NOT; auto. rewrite E7, rq_t1.
        destruct (req_trans_cases _ rq_ty) as [(_ & -> & _) | [(_ & -> & _) | (_ & -> & _)]]; auto.
    + destruct (negb (tl_hit p (a_c a) r) || is_amo (cq_type r)) eqn:HA.
      * assert (HN : tl_hit p (a_c a) r = false \/ is_amo (cq_type r) = true).
        { destruct (tl_hit p (a_c a) r); auto. }
        assert (AL : cs1_alloc p s = true).
        { rewrite (lw_alloc p s _ r LK). destruct HN as [-> | ->]; rewrite ?orb_true_r; auto. }
        assert (RE : i_req_en i = false) by (eapply noreq_alloc; eauto).
        assert (MVf : mr_val s = false) by (apply mr_val_mrv; auto).
        assert (WH : write_hit_clean p s = false).
        { rewrite (lw_whc p s _ r LK). destruct HN as [-> | A]; rewrite ?andb_false_r; auto.
          rewrite (rw_not_amo p s _ r LK), A. auto. }
        assert (TR : trans0 p s i = TR_INVALID) by (apply trans0_ready_idle; auto).
        assert (TN : tl_reqs p (a_c a) r <> []).
        { pose proof (rw_not_amo p s _ r LK) as RW. unfold is_rw in RW. unfold tl_reqs.
          destruct (N.eqb_spec (cq_type r) T_INV) as [E|E]; [rewrite E in rq_ty; discriminate|].
          destruct (N.eqb_spec (cq_type r) T_FLUSH) as [E'|E']; [rewrite E' in rq_ty; discriminate|].
          unfold tl_isamo. destruct HN as [HN|HN]; rewrite HN; destruct (tl_evict p (a_c a) r), (is_amo (cq_type r)); cbn; discriminate. }
        assert (M2 : exists q, mem2 p (next p s i) = Some q /\ fsm (next p s i) = F_READY /\ mr_val (next p s i) = false).
        { destruct CASES as [(_ & EC & todo' & out' & l' & CU' & L1 & L2) | C]; [|exfalso; revert C; apply NOD; auto].
          assert (T1 : t1 (next p s i) = TR_INVALID) by (rewrite (an_t1 p s i S EV), TR; auto).
          cbn [ol length] in L1. rewrite Nat.add_0_r in L1.
          assert (TD : todo' <> []) by (intro; subst todo'; destruct (tl_reqs p (a_c a) r); [auto|discriminate L1]).
          eapply inv_wait_todo; eauto. }
        destruct M2 as (q & M2 & FR & MV').
        left. apply STAY.
        -- unfold crem, memok. rewrite (an_t1 p s i S EV), TR, FR, MV', M2. cbn. lia.
        -- destruct CASES as [C | C]; [exact C|]. exfalso. revert C. apply NOD; auto.
      * right. right. split; auto. split; auto. split; auto.
        destruct (i_req_en i) eqn:RE; [left; auto|right].
        assert (TL : tl_hit p (a_c a) r = true /\ is_amo (cq_type r) = false).
        { destruct (tl_hit p (a_c a) r), (is_amo (cq_type r)); auto; discriminate. }
        destruct TL as [HT NA].
        assert (MVf : mr_val s = false) by (apply mr_val_mrv; auto).
        assert (T1 : t1 (next p s i) = TR_INVALID \/ t1 (next p s i) = TR_CLEAN_HIT).
        { rewrite (an_t1 p s i S EV). unfold trans0. rewrite rq_fsm, RE, MVf, andb_false_r. destruct (write_hit_clean p s); auto. }
        split.
        -- destruct CASES as [(_ & EC & todo' & out' & l' & CU' & L1 & L2) | (_ & _ & _ & C)]; auto.
           exfalso.
           assert (IR : is_rw (cq_type r) = true) by (rewrite (rw_not_amo p s _ r LK), NA; auto).
           pose proof (inv_wait _ _ _ PH' T1 CU') as P. cbn [u_req] in P.
           pose proof (wt_miss _ _ _ _ P IR) as X. rewrite EC in X. congruence.
        -- unfold resp1. destruct T1 as [-> | ->]; cbn [m2_active]; [reflexivity|].
           unfold m2_resp. reflexivity.
  - assert (r0 = r) by (rewrite (ev_cur _ _ _ _ P) in CU; inversion CU; auto). subst r0.
    destruct P. assert (OB : a_outst a = []) by (eapply outst_cur; eauto). clear OA. rewrite ev_cur in CU. inversion CU; subst todo out l. clear CU. rewrite OB in LG.
    assert (NF : cq_type r <> T_FLUSH) by (intro E; rewrite E in ev_ty; discriminate).
    assert (NI : cq_type r <> T_INV) by (intro E; rewrite E in ev_ty; discriminate).
    pose proof (tl_reqs_le2 p (a_c a) r NF) as LE2.
    assert (K0 : k = 0) by (unfold len in KT; cbn [length] in KT; lia). subst k. clear KO.
    assert (NM : i_mresp_en i = false) by (eapply noresp; eauto).
    rewrite ev_mem2 in OM. assert (KK : k' = 1) by (unfold k'; rewrite OM; auto). clearbody k'. subst k'. rewrite OM in *.
    assert (FI : fsm s <> F_INIT) by (rewrite ev_fsm; discriminate).
    assert (TP : tag_proc_en s = false) by (unfold tag_proc_en; rewrite ev_ev2; auto).
    assert (PU : pu p s = (false, false, 0)) by (unfold pu, pu_compare; rewrite TP, andb_false_r; auto).
    assert (H1 : hit1 p s = false) by (unfold hit1, pu_hit; rewrite PU; cbn; destruct (is_rwi1 s || is_amo1 s); auto).
    assert (LD : forall w, pu_ld p s w = false) by (intro; unfold pu_ld, line_dirty; rewrite TP; auto).
    assert (EV : is_evict1 p s = false).
    { unfold is_evict1, is_dty1. rewrite H1, !LD. destruct (is_rwi1 s), (is_amo1 s); cbn; auto; rewrite ?andb_false_r; auto. }
    assert (MVf : mr_val s = false) by (apply mr_val_mrv; auto).
    assert (WH : write_hit_clean p s = false).
    { unfold write_hit_clean. rewrite H1. cbn. rewrite !andb_false_r. auto. }
    assert (AL : cs1_alloc p s = true).
    { unfold cs1_alloc, cs1. rewrite EV, H1, ev_t1.
      destruct (req_trans_cases _ ev_ty) as [(_ & E & _) | [(_ & E & _) | (_ & E & _)]]; rewrite E; auto. }
    assert (RE : i_req_en i = false) by (eapply noreq_alloc; eauto).
    assert (TR : trans0 p s i = TR_INVALID) by (apply trans0_ready_idle; auto).
    assert (T1 : t1 (next p s i) = TR_INVALID) by (rewrite (an_t1 p s i S EV), TR; auto).
    assert (CA : i_req_en i = false /\ a_c a' = a_c a /\
          (exists (todo' out' : list mreq) (l' : N),
             a_cur a' = Some {| u_req := r; u_todo := todo'; u_out := out'; u_last := l' |} /\
             (length todo' + length (ol (Some (evict_req p (a_c a) r (tl_way p (a_c a) r)))) =
              length [evict_req p (a_c a) r (tl_way p (a_c a) r); main_req p (a_c a) r])%nat /\
             (length out' <= length (@nil mreq) + length (ol (Some (evict_req p (a_c a) r (tl_way p (a_c a) r)))))%nat)).
    { destruct CASES as [C | C]; [exact C|]. exfalso. revert C. apply NOD. discriminate. }
    assert (M2 : exists q, mem2 p (next p s i) = Some q /\ fsm (next p s i) = F_READY /\ mr_val (next p s i) = false).
    { destruct CA as (_ & EC & todo' & out' & l' & CU' & L1 & L2).
      cbn [ol length] in L1. assert (TD : todo' <> []) by (intro; subst todo'; discriminate L1).
      eapply inv_wait_todo; eauto. }
    destruct M2 as (q & M2 & FR & MV').
    left. apply STAY; [|exact CA].
    unfold crem, memok. rewrite T1, FR, MV', M2, ev_t1, ev_ev2. cbn [N.eqb N.add].
    unfold svc. rewrite (proj2 (N.eqb_neq _ _) NF), (proj2 (N.eqb_neq _ _) NI). unfold xr. cbn [N.eqb].
    destruct (req_trans_cases _ ev_ty) as [(_ & -> & _) | [(_ & -> & _) | (_ & -> & _)]]; destruct (is_amo (cq_type r)); cbn; lia.
  - assert (r0 = r).
    { destruct (wt_cur _ _ _ _ P) as [(_ & _ & _ & ? & ? & _ & X) | [(_ & _ & ? & ? & ? & _ & _ & X) | (_ & _ & X)]]; rewrite X in CU; inversion CU; auto. }
    subst r0. destruct P.
    assert (NF : cq_type r <> T_FLUSH) by (intro E; rewrite E in wt_ty; discriminate).
    assert (NI : cq_type r <> T_INV) by (intro E; rewrite E in wt_ty; discriminate).
    pose proof (tl_reqs_le2 p (a_c a) r NF) as LE2.
    assert (FI : fsm s <> F_INIT) by (rewrite wt_fsm; discriminate).
    pose proof (noreq_msn _ _ _ _ LG wt_msn) as RE.
    assert (Q : quiet_t (t1 s) = true) by (rewrite wt_t1; auto).
    pose proof (quiet_evict p s Q) as EV. pose proof (quiet_whc p s Q) as WH.
    assert (MT : mshr_type s = cq_type r) by (unfold mshr_type; rewrite wt_msr; auto).
    assert (M2' : mem2 p (next p s i) = None) by (rewrite (an_mem2 p s i S), wt_t1; auto).
    assert (MV' : mr_val (next p s i) = i_mresp_en i && negb (mr_type (i_mresp i) =? T_WRITE)).
    { unfold mr_val. rewrite an_mrv, an_mrm by auto. auto. }
    assert (STN : mr_val s = false -> forall n k, crem r (next p s i) n k = if mr_val (next p s i) then xr r else xr r + n).
    { intros MV n0 k0. unfold crem. rewrite (an_t1 p s i S EV), (trans0_ready_idle p s i), (an_fsm p s i S EV) by auto.
      unfold fsm_next. rewrite wt_fsm, MV, RE, andb_false_r, M2'. auto. }
    assert (T1N : mr_val s = false -> t1 (next p s i) = TR_INVALID) by (intros; rewrite (an_t1 p s i S EV), (trans0_ready_idle p s i); auto).
    assert (C0 : crem r s (len out) k = if mr_val s then xr r else match mem2 p s with Some _ => if k =? 0 then 1 else xr r + 1 | None => xr r + len out end)
      by (unfold crem; rewrite wt_t1, wt_fsm; auto).
    assert (SV : forall k0, svc r k0 = if k0 =? 0 then 2 else xr r + 2 + k0).
    { intros k0. unfold svc, xr. rewrite (proj2 (N.eqb_neq _ _) NF), (proj2 (N.eqb_neq _ _) NI).
      destruct (k0 =? 0); auto. destruct (is_amo (cq_type r)); lia. }
    destruct wt_cur as [(M2 & _ & MV & out0 & l0 & AK & CU2) | [(T2 & MV & out0 & m & l0 & AK & MN & CU2) | (T2 & MV & CU2)]];
      rewrite CU in CU2.
    + assert (E : todo = [main_req p (a_c a) r] /\ out = out0) by (inversion CU2; auto). destruct E as [-> <-]. clear CU2.
      rewrite M2 in OM. assert (KK : k' = k + 1) by (unfold k'; rewrite OM; auto). clearbody k'. subst k'.
      assert (K1 : k <= 1) by (unfold len in *; cbn [length] in KT; lia).
      left. apply STAY; [|destruct CASES as [C | C]; [exact C|]; exfalso; revert C; apply NOD; discriminate].
      rewrite STN, C0, MV, M2, !SV by auto.
      assert (LN : len (outst_next out i o) = len out + 1 - (if i_mresp_en i then 1 else 0)).
      { unfold outst_next, len. rewrite OM, app_length. cbn [ol length]. destruct (i_mresp_en i) eqn:ME; [|lia].
        rewrite OA in LG. destruct (lg_resp _ _ _ _ LG ME) as (m & l1 & -> & _). cbn [tl length]. lia. }
      assert (MVN : mr_val (next p s i) = false).
      { rewrite MV'. destruct (i_mresp_en i) eqn:ME; auto. cbn [andb]. rewrite OA in LG. destruct (lg_resp _ _ _ _ LG ME) as (m & l1 & E & TY).
        rewrite E in AK. rewrite TY, (Forall_inv AK). auto. }
      rewrite MVN, LN. unfold memok.
      assert (OE : match out with [] => 1 | _ => if i_mresp_en i then 1 else 0 end = if len out =? 0 then 1 else if i_mresp_en i then 1 else 0).
      { destruct out; auto. }
      rewrite OE. clear OE.
      assert (ME0 : len out = 0 -> i_mresp_en i = false).
      { intros E. apply (noresp p s). rewrite OA in LG. destruct out; auto. unfold len in E. cbn [length] in E. lia. }
      destruct (N.eqb_spec k 0) as [K0|K0].
      * subst k. assert (len out = 0) by lia. rewrite H in *. rewrite ME0 by auto. change (0 + 1 =? 0) with false. change (0 =? 0) with true. cbn iota. lia.
      * assert (k = 1) by lia. subst k. change (1 + 1 =? 0) with false. cbn iota. destruct (N.eqb_spec (len out) 0) as [E0|E0].
        -- rewrite ME0, E0 by auto. lia.
        -- assert (E1 : len out = 1) by lia. rewrite E1. destruct (i_mresp_en i); lia.
    + assert (E : todo = [] /\ out = out0 ++ [m]) by (inversion CU2; auto). destruct E as [-> EO]. clear CU2.
      destruct (m2_inactive p s) as [_ M2]; [rewrite T2; auto|]. rewrite M2 in OM.
      assert (KK : k' = k) by (unfold k'; rewrite OM; cbn [is_some]; lia). clearbody k'. subst k'.
      assert (NE : out <> []) by (rewrite EO; destruct out0; discriminate).
      left. apply STAY.
      * rewrite STN, C0, MV, M2 by auto. unfold memok, outst_next. rewrite OM. cbn [ol]. rewrite app_nil_r.
        destruct (i_mresp_en i) eqn:ME; cbn [andb] in MV'.
        -- rewrite OA in LG. destruct (lg_resp _ _ _ _ LG ME) as (m1 & l1 & E & TY). rewrite E. cbn [tl]. unfold len. cbn [length].
           rewrite MV'. destruct (N.eqb_spec (mr_type (i_mresp i)) T_WRITE) as [TW|TW]; cbn [negb]; [lia|].
           assert (L0 : l1 = []).
           { rewrite E in EO. destruct out0 as [|x out0]; [inversion EO; auto|]. inversion EO; subst. inversion AK; subst. congruence. }
           subst l1. cbn [length]. lia.
        -- rewrite MV'. destruct out; [contradiction|]. unfold len. cbn [length]. lia.
      * destruct CASES as [C | (_ & _ & [C|C] & C2)]; [exact C | contradiction |]. exfalso.
        specialize (C2 RE). pose proof (id_mrv _ _ _ (phase_none _ _ PH' C2)) as X. rewrite an_mrv in X by auto. congruence.
    + assert (E : todo = [] /\ out = []) by (inversion CU2; auto). destruct E as [-> ->]. clear CU2.
      destruct (m2_inactive p s) as [_ M2]; [rewrite T2; auto|]. rewrite M2 in OM.
      assert (KK : k' = k) by (unfold k'; rewrite OM; cbn [is_some]; lia). clearbody k'. subst k'.
      assert (NM : i_mresp_en i = false) by (apply (noresp p s); rewrite <- OA; auto).
      rewrite MV in C0.
      destruct (is_amo (cq_type r)) eqn:A.
      * right. left. unfold xr in C0. rewrite A in C0. apply REP; auto.
        rewrite (an_t1 p s i S EV). unfold trans0, mshr_empty. rewrite wt_fsm, WH, MV, MT, wt_msn, A. cbn [andb negb N.eqb].
        destruct (N.eqb_spec (cq_type r) T_WRITE) as [E|E]; [rewrite E in A; discriminate|].
        destruct (N.eqb_spec (cq_type r) T_READ) as [E'|E']; [rewrite E' in A; discriminate|]. auto.
      * assert (RW : (cq_type r =? T_WRITE) || (cq_type r =? T_READ) = true).
        { rewrite orb_comm. rewrite orb_false_r in wt_ty. exact wt_ty. }
        assert (T1' : t1 (next p s i) = TR_REFILL /\ fsm (next p s i) = F_REPLAY).
        { rewrite (an_t1 p s i S EV), (an_fsm p s i S EV). unfold trans0, fsm_next, mshr_empty.
          rewrite wt_fsm, WH, MV, MT, wt_msn, RW. auto. }
        destruct T1' as [T1' F1'].
        left. apply STAY.
        -- rewrite C0. unfold crem, memok, xr. rewrite T1', F1', A. lia.
        -- destruct CASES as [C | C]; [exact C|]. exfalso. revert C. apply NOT; auto. rewrite T1'. auto.
  - assert (r0 = r) by (destruct (rf_cur _ _ _ _ P) as (l0 & X & _); rewrite X in CU; inversion CU; auto). subst r0.
    destruct P. destruct rf_cur as (l0 & CU2 & _). rewrite CU in CU2.
    assert (E : todo = [] /\ out = []) by (inversion CU2; auto). destruct E as [-> ->]. clear CU2.
    destruct (m2_inactive p s) as [_ M2]; [rewrite rf_t2; auto|]. rewrite M2 in OM.
    assert (Q : quiet_t (t1 s) = true) by (rewrite rf_t1; auto).
    pose proof (quiet_evict p s Q) as EV. pose proof (quiet_whc p s Q) as WH.
    assert (MT : mshr_type s = cq_type r) by (unfold mshr_type; rewrite rf_msr; auto).
    right. left. apply REP; auto.
    + eapply noreq_msn; eauto.
    + unfold crem. rewrite rf_t1, rf_fsm. auto.
    + rewrite (an_t1 p s i S EV). unfold trans0, mshr_empty. rewrite rf_fsm, WH, MT, rf_msn. cbn [andb negb N.eqb].
      unfold is_rw in rf_ty. apply orb_prop in rf_ty. destruct rf_ty as [E|E]; apply N.eqb_eq in E; rewrite E; auto.
  - assert (r0 = r) by (rewrite (iv_cur _ _ _ _ _ P) in CU; inversion CU; auto). subst r0.
    destruct P. rewrite iv_cur in CU. assert (E : todo = [] /\ out = []) by (inversion CU; auto). destruct E as [-> ->]. clear CU.
    assert (Q : quiet_t (t1 s) = true) by (destruct iv_t1 as [(-> & _) | (-> & _)]; auto).
    pose proof (quiet_evict p s Q) as EV. pose proof (quiet_whc p s Q) as WH.
    rewrite iv_mem2 in OM. assert (KK : k' = k) by (unfold k'; rewrite OM; cbn [is_some]; lia). clearbody k'. subst k'.
    assert (RE : i_req_en i = false).
    { destruct iv_t1 as [(E & _) | (_ & M & _)]; [|eapply noreq_msn; eauto]. eapply noreq_alloc; eauto.
      unfold cs1_alloc, cs1. rewrite EV, E. auto. }
    assert (CC : crem r s (len []) k = 4 + kk) by (unfold crem; rewrite iv_fsm, iv_ctr; destruct iv_t1 as [(-> & _) | (-> & _)]; auto).
    assert (T1' : t1 (next p s i) = TR_INV_WRITE).
    { rewrite (an_t1 p s i S EV). unfold trans0. rewrite iv_fsm, WH. auto. }
    left. apply STAY.
    + rewrite CC.
      assert (C' : crem r (next p s i) (len (outst_next [] i o)) k = if kk =? 0 then 3 else 4 + (kk - 1)).
      { unfold crem. rewrite T1', (an_fsm p s i S EV), (an_ctr p s i S EV).
        unfold fsm_next, ctr_en. rewrite iv_fsm, iv_ctr. cbn [fsm_eqb orb].
        rewrite ctr_dec_prev by (auto; rewrite iv_ctr; auto). rewrite iv_ctr. unfold prev_line.
        destruct (kk =? 0); auto. }
      rewrite C'. unfold memok. destruct (N.eqb_spec kk 0); lia.
    + destruct CASES as [C | C]; [exact C|]. exfalso. revert C. apply NOT; auto. rewrite T1'. auto.
  - assert (r0 = r) by (rewrite (il_cur _ _ _ _ P) in CU; inversion CU; auto). subst r0.
    destruct P. rewrite il_cur in CU. assert (E : todo = [] /\ out = []) by (inversion CU; auto). destruct E as [-> ->]. clear CU.
    assert (Q : quiet_t (t1 s) = true) by (rewrite il_t1; auto).
    pose proof (quiet_evict p s Q) as EV. pose proof (quiet_whc p s Q) as WH.
    rewrite il_mem2 in OM.
    assert (MT : mshr_type s = T_INV) by (unfold mshr_type; rewrite il_msr; auto).
    right. left. apply REP; auto.
    + eapply noreq_msn; eauto.
    + unfold crem. rewrite il_t1, il_fsm. auto.
    + rewrite (an_t1 p s i S EV). unfold trans0, mshr_empty. rewrite il_fsm, WH, MT, il_msn. auto.
  - assert (r0 = r) by (rewrite (fs_cur _ _ _ _ P) in CU; inversion CU; auto). subst r0.
    destruct P. rewrite fs_cur in CU.
    assert (E : todo = flush_reqs p (a_c a) (cq_opq r) (N.to_nat (total_lines p)) /\ out = []) by (inversion CU; auto). destruct E as [-> ->]. clear CU.
    assert (Q : quiet_t (t1 s) = true) by (rewrite fs_t1; auto).
    pose proof (quiet_evict p s Q) as EV. pose proof (quiet_whc p s Q) as WH.
    rewrite fs_mem2 in OM. assert (KK : k' = k) by (unfold k'; rewrite OM; cbn [is_some]; lia). clearbody k'. subst k'.
    assert (RE : i_req_en i = false).
    { eapply noreq_alloc; eauto. unfold cs1_alloc, cs1. rewrite EV, fs_t1. auto. }
    assert (HF : has_flush_sent1 p s = false) by (unfold has_flush_sent1; rewrite fs_t1; auto).
    assert (TR : trans0 p s i = TR_FLUSH_READ) by (unfold trans0; rewrite fs_fsm, WH, HF; auto).
    assert (T1' : t1 (next p s i) = TR_FLUSH_READ) by (rewrite (an_t1 p s i S EV); auto).
    assert (LL : last_line p < total_lines p) by (unfold last_line; lia).
    assert (CT : ctr (next p s i) = prev_line p (last_line p)).
    { rewrite an_ctr by auto. unfold ctr_en. rewrite fs_fsm, TR. cbn [fsm_eqb trans_eqb orb].
      rewrite ctr_dec_prev by (auto; rewrite fs_ctr; auto). rewrite fs_ctr. auto. }
    left. apply STAY.
    + unfold crem, memok. rewrite T1', fs_t1, (fline_prev p W _ _ LL CT). unfold last_line. lia.
    + destruct CASES as [C | C]; [exact C|]. exfalso. revert C. apply NOT; auto. rewrite T1'. auto.
  - assert (r0 = r) by (destruct (fr_cur _ _ _ _ _ P) as (l0 & X); rewrite X in CU; inversion CU; auto). subst r0.
    destruct P. destruct fr_c. destruct fr_cur as (l0 & CU2). rewrite CU in CU2.
    assert (E : out = []) by (inversion CU2; auto). clear CU2. rewrite E in *. clear E.
    assert (Q : quiet_t (t1 s) = true) by (rewrite fl_t1; auto).
    pose proof (quiet_evict p s Q) as EV. pose proof (quiet_whc p s Q) as WH.
    rewrite fr_mem2 in OM. assert (KK : k' = k) by (unfold k'; rewrite OM; cbn [is_some]; lia). clearbody k'. subst k'.
    pose proof (noreq_msn _ _ _ _ LG fl_msn) as RE.
    assert (MT : mshr_type s = T_FLUSH) by (unfold mshr_type; rewrite fl_msr; auto).
    assert (C0 : crem r s (len []) k = kk + 3) by (unfold crem; rewrite fl_t1, (fline_prev p W _ _ fl_k fl_ctr); auto).
    assert (MK : mr_ack s = false) by (unfold mr_ack; rewrite fr_mrv; auto).
    destruct (pu_ld p s (utw1 s)) eqn:LD.
    + assert (HF : has_flush_sent1 p s = true) by (unfold has_flush_sent1; rewrite fl_t1, LD; auto).
      assert (PD : prev_flush_done p s = false).
      { unfold prev_flush_done, no_flush_needed1, flush_refill_bypass. rewrite fl_t1, LD, MK. auto. }
      assert (X : trans0 p s i = TR_FLUSH_WAIT /\ fsm_next p s i = F_FLUSH_WAIT).
      { unfold trans0, fsm_next. rewrite fr_fsm, WH. destruct (kk =? 0).
        - unfold mshr_empty. rewrite MT, fl_msn, PD. auto.
        - rewrite HF. auto. }
      destruct X as [TR FN].
      assert (T1' : t1 (next p s i) = TR_FLUSH_WAIT) by (rewrite (an_t1 p s i S EV); auto).
      assert (CT : ctr (next p s i) = prev_line p kk).
      { rewrite an_ctr by auto. unfold ctr_en. rewrite fr_fsm, TR. destruct (kk =? 0); auto. }
      assert (CA : i_req_en i = false /\ a_c a' = a_c a /\ exists todo' out' l', a_cur a' = Some (mkCur r todo' out' l') /\
         (length todo' + length (ol (o_mreq o)) = length todo)%nat /\
         (length out' <= length (@nil mreq) + length (ol (o_mreq o)))%nat).
      { destruct CASES as [C | C]; [exact C|]. exfalso. revert C. apply NOT; auto. rewrite T1'. auto. }
      assert (M2 : exists q, mem2 p (next p s i) = Some q /\ mrv (next p s i) = false).
      { assert (OE : outst_next (a_outst a) i o = []).
        { rewrite OA. unfold outst_next. rewrite OM. destruct (i_mresp_en i); auto. }
        assert (NMv : i_mresp_en i = false) by (apply (noresp p s); rewrite <- OA; auto).
        destruct CA as (_ & _ & todo' & out' & l' & CU' & _).
        destruct PH' as [P | r' P | r' P | r' P | r' P | r' k0 P | r' P | r' P | r' k0 P | r' k0 P | r' k0 P].
        - pose proof (id_t1 _ _ _ P) as X. rewrite T1' in X. discriminate.
        - exfalso. pose proof (rq_t1 _ _ _ _ P) as X. rewrite T1' in X. destruct (req_trans_cases _ (rq_ty _ _ _ _ P)) as [(_ & Y & _) | [(_ & Y & _) | (_ & Y & _)]]; congruence.
        - exfalso. pose proof (ev_t1 _ _ _ _ P) as X. rewrite T1' in X. destruct (req_trans_cases _ (ev_ty _ _ _ _ P)) as [(_ & Y & _) | [(_ & Y & _) | (_ & Y & _)]]; congruence.
        - rewrite (wt_t1 _ _ _ _ P) in T1'. discriminate.
        - rewrite (rf_t1 _ _ _ _ P) in T1'. discriminate.
        - destruct (iv_t1 _ _ _ _ _ P) as [(X & _) | (X & _)]; congruence.
        - rewrite (il_t1 _ _ _ _ P) in T1'. discriminate.
        - rewrite (fs_t1 _ _ _ _ P) in T1'. discriminate.
        - rewrite (RefineInv.fl_t1 _ _ _ _ _ _ (RefineInv.fr_c _ _ _ _ _ P)) in T1'. discriminate.
        - destruct (fw_cur _ _ _ _ _ P) as [(opq & e & l1 & M2 & _ & MV & _) | [(m & l1 & _ & _ & _ & CU2 & _) | (l1 & _ & MV & _)]].
          + eauto.
          + exfalso. pose proof (outst_cur _ _ _ _ _ CU2) as X. rewrite ON, OE in X. discriminate.
          + exfalso. rewrite an_mrv in MV by auto. congruence.
        - rewrite (RefineInv.fl_t1 _ _ _ _ _ _ (fx_c _ _ _ _ _ P)) in T1'. discriminate. }
      destruct M2 as (q & M2 & MV).
      left. apply STAY; [|exact CA].
      rewrite C0. unfold crem, memok. rewrite T1', (an_fsm p s i S EV), FN, (fline_prev p W _ _ fl_k CT), MV, M2. lia.
    + destruct (N.eqb_spec kk 0) as [K0|K0].
      * right. left. apply REP; auto.
        -- rewrite C0. lia.
        -- rewrite (an_t1 p s i S EV). unfold trans0, mshr_empty. rewrite fr_fsm, WH, MT, fl_msn.
           unfold prev_flush_done, no_flush_needed1. rewrite fl_t1, LD. auto.
      * assert (HF : has_flush_sent1 p s = false) by (unfold has_flush_sent1; rewrite fl_t1, LD; auto).
        assert (TR : trans0 p s i = TR_FLUSH_READ) by (unfold trans0; rewrite fr_fsm, WH, HF; auto).
        assert (T1' : t1 (next p s i) = TR_FLUSH_READ) by (rewrite (an_t1 p s i S EV); auto).
        assert (PK : prev_line p kk = kk - 1) by (unfold prev_line; destruct (N.eqb_spec kk 0); lia).
        assert (CT : ctr (next p s i) = prev_line p (kk - 1)).
        { rewrite an_ctr by auto. unfold ctr_en. rewrite fr_fsm, TR. cbn [fsm_eqb trans_eqb orb].
          rewrite ctr_dec_prev by (auto; rewrite fl_ctr, PK; lia). rewrite fl_ctr, PK. auto. }
        left. apply STAY.
        -- rewrite C0. unfold crem, memok. rewrite T1', (fline_prev p W _ (kk - 1) ltac:(lia) CT). lia.
        -- destruct CASES as [C | C]; [exact C|]. exfalso. revert C. apply NOT; auto. rewrite T1'. auto.
  - assert (r0 = r).
    { destruct (fw_cur _ _ _ _ _ P) as [(opq & e & l1 & _ & _ & _ & _ & X & _) | [(m & l1 & _ & _ & _ & X & _) | (l1 & _ & _ & _ & X & _)]]; rewrite X in CU; inversion CU; auto. }
    subst r0. destruct P. destruct fw_c.
    assert (Q : quiet_t (t1 s) = true) by (rewrite fl_t1; auto).
    pose proof (quiet_evict p s Q) as EV. pose proof (quiet_whc p s Q) as WH.
    pose proof (noreq_msn _ _ _ _ LG fl_msn) as RE.
    assert (M2' : mem2 p (next p s i) = None) by (rewrite (an_mem2 p s i S), fl_t1; auto).
    assert (SV : forall k0, svc r k0 = total_lines p + 3 + 4 * k0) by (intros; unfold svc; rewrite fl_ty; auto).
    assert (C0 : crem r s (len out) k = if mrv s then kk + 4 else match mem2 p s with Some _ => kk + 2 | None => kk + 5 end).
    { unfold crem. rewrite fl_t1, fw_fsm, (fline_prev p W _ _ fl_k fl_ctr); auto. }
    assert (T1' : mrv s = false -> t1 (next p s i) = TR_FLUSH_WAIT).
    { intros MV. assert (MK : mr_ack s = false) by (unfold mr_ack; rewrite MV; auto).
      rewrite (an_t1 p s i S EV). unfold trans0; rewrite fw_fsm, WH, MK; auto. }
    assert (STN : mrv s = false -> forall n k, crem r (next p s i) n k = if i_mresp_en i then kk + 4 else kk + 5).
    { intros MV n0 k0. assert (MK : mr_ack s = false) by (unfold mr_ack; rewrite MV; auto).
      assert (TR : trans0 p s i = TR_FLUSH_WAIT) by (unfold trans0; rewrite fw_fsm, WH, MK; auto).
      assert (CT : ctr (next p s i) = prev_line p kk).
      { rewrite an_ctr by auto. unfold ctr_en. rewrite fw_fsm, TR. auto. }
      unfold crem. rewrite (an_t1 p s i S EV), TR, (an_fsm p s i S EV), (an_mrv p s i S EV), M2', (fline_prev p W _ _ fl_k CT).
      unfold fsm_next. rewrite fw_fsm, MK. auto. }
    destruct fw_cur as [(opq & e & l0 & M2 & _ & MV & _ & CU2 & _) | [(m & l0 & T2 & MV & _ & CU2 & _) | (l0 & T2 & MV & TY & CU2 & _)]];
      rewrite CU in CU2.
    + assert (E : todo <> [] /\ out = []) by (inversion CU2; split; auto; discriminate). destruct E as [TN ->]. clear CU2.
      rewrite M2 in OM. assert (KK : k' = k + 1) by (unfold k'; rewrite OM; auto). clearbody k'. subst k'.
      assert (NM : i_mresp_en i = false) by (apply (noresp p s); rewrite <- OA; auto).
      left. apply STAY.
      * rewrite STN, C0, MV, M2, NM, !SV by auto. unfold memok. lia.
      * destruct CASES as [C | C]; [exact C|]. exfalso. revert C. apply NOD; auto.
    + assert (E : out = [m]) by (inversion CU2; auto). clear CU2. rewrite E in *. clear E.
      destruct (m2_inactive p s) as [_ M2]; [rewrite T2; auto|]. rewrite M2 in OM.
      assert (KK : k' = k) by (unfold k'; rewrite OM; cbn [is_some]; lia). clearbody k'. subst k'.
      left. apply STAY.
      * rewrite STN, C0, MV, M2 by auto. unfold memok. destruct (i_mresp_en i); lia.
      * destruct CASES as [C | C]; [exact C|]. exfalso. revert C. apply NOT; auto. rewrite T1'; auto.
    + assert (E : out = []) by (inversion CU2; auto). clear CU2. rewrite E in *. clear E.
      destruct (m2_inactive p s) as [_ M2]; [rewrite T2; auto|]. rewrite M2 in OM.
      assert (KK : k' = k) by (unfold k'; rewrite OM; cbn [is_some]; lia). clearbody k'. subst k'.
      assert (MK : mr_ack s = true) by (unfold mr_ack; rewrite MV, TY; auto).
      assert (TR : trans0 p s i = TR_FLUSH_WRITE) by (unfold trans0; rewrite fw_fsm, WH, MK; auto).
      assert (T1'' : t1 (next p s i) = TR_FLUSH_WRITE) by (rewrite (an_t1 p s i S EV); auto).
      assert (CT : ctr (next p s i) = prev_line p kk).
      { rewrite an_ctr by auto. unfold ctr_en. rewrite fw_fsm, TR. auto. }
      left. apply STAY.
      * rewrite C0, MV. unfold crem, memok. rewrite T1'', (fline_prev p W _ _ fl_k CT). lia.
      * destruct CASES as [C | C]; [exact C|]. exfalso. revert C. apply NOT; auto. rewrite T1''; auto.
  - assert (r0 = r) by (destruct (fx_cur _ _ _ _ _ P) as (l0 & X); rewrite X in CU; inversion CU; auto). subst r0.
    destruct P. destruct fx_c. destruct fx_cur as (l0 & CU2). rewrite CU in CU2.
    assert (E : out = []) by (inversion CU2; auto). clear CU2. rewrite E in *. clear E.
    assert (Q : quiet_t (t1 s) = true) by (rewrite fl_t1; auto).
    pose proof (quiet_evict p s Q) as EV. pose proof (quiet_whc p s Q) as WH.
    destruct (m2_inactive p s) as [_ M2]; [rewrite fx_t2; auto|]. rewrite M2 in OM.
    assert (KK : k' = k) by (unfold k'; rewrite OM; cbn [is_some]; lia). clearbody k'. subst k'.
    pose proof (noreq_msn _ _ _ _ LG fl_msn) as RE.
    assert (MT : mshr_type s = T_FLUSH) by (unfold mshr_type; rewrite fl_msr; auto).
    assert (C0 : crem r s (len []) k = kk + 3) by (unfold crem; rewrite fl_t1, (fline_prev p W _ _ fl_k fl_ctr); auto).
    destruct (N.eqb_spec kk 0) as [K0|K0].
    * right. left. apply REP; auto.
      -- rewrite C0. lia.
      -- rewrite (an_t1 p s i S EV). unfold trans0, mshr_empty. rewrite fx_fsm, WH, MT, fl_msn.
         unfold prev_flush_done, flush_refill_bypass. rewrite fl_t1, orb_true_r. auto.
    * assert (HF : has_flush_sent1 p s = false) by (unfold has_flush_sent1; rewrite fl_t1; auto).
      assert (TR : trans0 p s i = TR_FLUSH_READ) by (unfold trans0; rewrite fx_fsm, WH, HF; auto).
      assert (T1' : t1 (next p s i) = TR_FLUSH_READ) by (rewrite (an_t1 p s i S EV); auto).
      assert (PK : prev_line p kk = kk - 1) by (unfold prev_line; destruct (N.eqb_spec kk 0); lia).
      assert (CT : ctr (next p s i) = prev_line p (kk - 1)).
      { rewrite an_ctr by auto. unfold ctr_en. rewrite fx_fsm, TR. cbn [fsm_eqb trans_eqb orb].
        rewrite ctr_dec_prev by (auto; rewrite fl_ctr, PK; lia). rewrite fl_ctr, PK. auto. }
      left. apply STAY.
      -- rewrite C0. unfold crem, memok. rewrite T1', (fline_prev p W _ (kk - 1) ltac:(lia) CT). lia.
      -- destruct CASES as [C | C]; [exact C|]. exfalso. revert C. apply NOT; auto. rewrite T1'. auto.
Qed.

Lemma stall_cur : forall s a i a' r todo out l k, phase p s a -> legal p s (a_outst a) i -> ostall2 s i = true ->
  acyc p a i (output p s i) a' -> phase p (next p s i) a' -> a_cur a = Some (mkCur r todo out l) ->
  i_req_en i = false /\ a_c a' = a_c a /\ exists todo' out' l', a_cur a' = Some (mkCur r todo' out' l') /\
    length todo' = length todo /\ (length out' <= length out)%nat /\
    crem r (next p s i) (len out') k <= crem r s (len out) k /\
    crem r s (len out) k <= crem r (next p s i) (len out') k + 1.
Proof.
  intros s a i a' r todo out l k PH LG S AC PH' CU.
  destruct (out_stall p s i S) as [_ OM].
  assert (FI : fsm s <> F_INIT /\ t1 s <> TR_CACHE_INIT /\ (idle_t (t1 s) = true -> msn s = 1)).
  { destruct PH as [P | r0 P | r0 P | r0 P | r0 P | r0 kk P | r0 P | r0 P | r0 kk P | r0 kk P | r0 kk P].
    - rewrite (id_cur _ _ _ P) in CU. discriminate.
    - rewrite (rq_fsm _ _ _ _ P), (rq_t1 _ _ _ _ P). split; [discriminate|]. split; [apply st_notinit; apply (rq_ty _ _ _ _ P)|].
      destruct (req_trans_cases _ (rq_ty _ _ _ _ P)) as [(_ & -> & _) | [(_ & -> & _) | (_ & -> & _)]]; discriminate.
    - rewrite (ev_fsm _ _ _ _ P), (ev_t1 _ _ _ _ P). split; [discriminate|]. split; [apply st_notinit; apply (ev_ty _ _ _ _ P)|].
      destruct (req_trans_cases _ (ev_ty _ _ _ _ P)) as [(_ & -> & _) | [(_ & -> & _) | (_ & -> & _)]]; discriminate.
    - rewrite (wt_fsm _ _ _ _ P), (wt_t1 _ _ _ _ P). split; [discriminate|]. split; [discriminate|]. intros _. apply (wt_msn _ _ _ _ P).
    - rewrite (rf_fsm _ _ _ _ P), (rf_t1 _ _ _ _ P). repeat split; discriminate.
    - rewrite (iv_fsm _ _ _ _ _ P). destruct (iv_t1 _ _ _ _ _ P) as [(-> & _) | (-> & _)]; repeat split; discriminate.
    - rewrite (il_fsm _ _ _ _ P), (il_t1 _ _ _ _ P). repeat split; discriminate.
    - rewrite (fs_fsm _ _ _ _ P), (fs_t1 _ _ _ _ P). repeat split; discriminate.
    - rewrite (fr_fsm _ _ _ _ _ P), (fl_t1 _ _ _ _ _ _ (fr_c _ _ _ _ _ P)). destruct (kk =? 0); repeat split; discriminate.
    - rewrite (fw_fsm _ _ _ _ _ P), (fl_t1 _ _ _ _ _ _ (fw_c _ _ _ _ _ P)). repeat split; discriminate.
    - rewrite (fx_fsm _ _ _ _ _ P), (fl_t1 _ _ _ _ _ _ (fx_c _ _ _ _ _ P)). destruct (kk =? 0); repeat split; discriminate. }
  destruct FI as (FI & TI & MS).
  assert (RE : i_req_en i = false) by (eapply noreq_stall; eauto; rewrite stall01_eq, S; apply orb_true_r).
  pose proof (stall_same p s i S FI TI RE) as SM.
  destruct (acyc_cur _ _ _ _ _ _ _ _ AC CU) as [(_ & EC & todo' & out' & l' & CU' & L1 & L2) | (_ & _ & _ & C)].
  - split; auto. split; auto. exists todo', out', l'. rewrite OM in L1, L2. cbn [ol length] in L1, L2.
    split; auto. split; [lia|]. split; [lia|].
    assert (LO : len out <= len out' + 1).
    { pose proof (acyc_outst p _ _ _ _ AC) as ON. rewrite (outst_cur _ _ _ _ _ CU), (outst_cur _ _ _ _ _ CU') in ON. unfold outst_next in ON. rewrite OM in ON. unfold len.
      rewrite ON. cbn [ol]. rewrite app_nil_r. destruct (i_mresp_en i); [destruct out; cbn [tl length]; lia | lia]. }
    unfold crem, fline, mr_val. rewrite (sm_t1 _ _ _ SM), (sm_ev2 _ _ _ SM), (sm_fsm _ _ _ SM), (sm_ctr _ _ _ SM), (sm_mrv _ _ _ SM), (sm_mrm _ _ _ SM), (sm_mem2 _ _ _ SM).
    assert (LE : len out' <= len out) by (unfold len; lia).
    split; destruct (t1 s); try lia; destruct (fsm s); try lia; destruct (mrv s && _); try lia; destruct (mem2 p s); lia.
  - exfalso. specialize (C RE). pose proof (phase_none _ _ PH' C) as PI. pose proof (id_t1 _ _ _ PI) as X. pose proof (id_msn _ _ _ PI) as Y.
    rewrite (sm_t1 _ _ _ SM) in X. rewrite (sm_msn _ _ _ SM), (MS X) in Y. discriminate.
Qed.

Lemma stok_adv : forall m0 s n m rq rs tr a i m' rq' rs', stok p m0 s n m rq rs tr a -> accepted tr <> [] ->
  legal p s (a_outst a) i -> client_ok p [(i, output p s i)] ->
  (length (memresps tr) <= length (memreqs tr))%nat ->
  mem_trace p m rq rs [(i, output p s i)] m' rq' rs' ->
  exists a', phase p s a /\ acyc p a i (output p s i) a' /\ phase p (next p s i) a' /\
    stok p m0 (next p s i) (S n) m' rq' rs' (tr ++ [(i, output p s i)]) a'.
Proof.
  intros m0 s n m rq rs tr a i m' rq' rs' ST NA LG CL LE MT.
  destruct (stok_J p _ _ _ _ _ _ _ _ ST) as [JJ OT].
  inversion ST as [c0 k CS PI NK A1 A2 A3 A4 EM EQ ES EA | a0 PH NK JA OA EA]; subst; [contradiction|].
  destruct (step_sim p W s a i PH LG) as (a' & AC & PH').
  exists a'. split; auto. split; auto. split; auto. apply st_phase; auto.
  - lia.
  - rewrite accepted_app, responses_app, memreqs_app. eapply J_run; eauto. econstructor; [eauto | constructor].
  - rewrite outstanding_next; auto.
    + rewrite OT. symmetry. eapply acyc_outst; eauto.
    + intros ME. destruct (lg_resp _ _ _ _ LG ME) as (q & l & EQ & _). rewrite OT, EQ. discriminate.
Qed.

Lemma counts : forall m0 s n m rq rs tr a, stok p m0 s n m rq rs tr a ->
  (length (responses tr) + length (a_pend a) + (match a_cur a with Some _ => 1 | None => 0 end) = length (accepted tr))%nat.
Proof.
  intros m0 s n m rq rs tr a ST. destruct (stok_J p _ _ _ _ _ _ _ _ ST) as [JJ _].
  destruct (J_hist p _ _ _ _ _ _ _ _ JJ) as (A0 & c & mb & Q & pd & H & PD & _ & C).
  pose proof (hist_length p _ _ _ _ _ _ H) as L. rewrite app_length in L. subst pd.
  destruct C as [(E & E2 & _) | (r & ex & qs & todo & out & l & E & _ & E2 & _)]; rewrite E, E2 in *.
  - lia.
  - rewrite app_length. cbn. lia.
Qed.

Definition ready (i : inp) : bool := i_resp_rdy i && i_mreq_rdy i.

(** where the request is, and how many cycles are left for it *)
Definition mt (r : creq) : N := N.of_nat (max_traffic p r).
Lemma flush_reqs_max : forall c o k, (length (flush_reqs p c o k) <= k)%nat.
Proof.
  induction k as [|k IH]; cbn [flush_reqs]; [cbn; lia|]. rewrite app_length.
  match goal with |- context [if ?b then _ else _] => destruct b end; cbn [length]; lia.
Qed.
Lemma tl_reqs_max : forall c r, len (tl_reqs p c r) <= mt r.
Proof.
  intros c r. unfold mt, max_traffic, len.
  destruct (N.eqb_spec (cq_type r) T_FLUSH) as [E|E].
  - unfold tl_reqs. rewrite E. change (T_FLUSH =? T_INV) with false. change (T_FLUSH =? T_FLUSH) with true. cbn iota.
    pose proof (flush_reqs_max c (cq_opq r) (N.to_nat (total_lines p))). lia.
  - destruct (N.eqb_spec (cq_type r) T_INV) as [I|I].
    + unfold tl_reqs. rewrite I. change (T_INV =? T_INV) with true. cbn. lia.
    + pose proof (tl_reqs_le2 p c r E). lia.
Qed.
Definition lft (r : creq) (NA : nat) (tk : N) (s : st) (a : ast) (tr : trace) (k x : N) : Prop :=
  (length (accepted tr) = NA /\ exists todo out l, a_cur a = Some (mkCur r todo out l) /\
      k + len todo = len (tl_reqs p (a_c a) r) /\ len out <= k /\ len (tl_reqs p (a_c a) r) = tk /\ x = crem r s (len out) k)
  \/ (length (accepted tr) = NA /\ a_cur a = None /\ k = tk /\ x = if is_some (resp1 p s) then 2 else 1)
  \/ (length (accepted tr) = S NA /\ k = tk /\ x = 1).
Lemma lft_tk : forall r NA tk s a tr k x, lft r NA tk s a tr k x -> k <= tk.
Proof.
  intros r NA tk s a tr k x [(_ & todo & out & l & _ & KT & _ & TK & _) | [(_ & _ & H & _) | (_ & H & _)]]; lia.
Qed.

Lemma oldest_resp2 : forall s a, phase p s a -> (a_pend a <> [] -> a_cur a <> None \/ (length (a_pend a) = 2)%nat -> is_some (resp2 p s) = true).
Proof.
  intros s a PH PN PC.
  assert (X : a_pend a = ol (resp2 p s) -> is_some (resp2 p s) = true).
  { intros E. rewrite E in PN. destruct (resp2 p s); [auto | cbn in PN; congruence]. }
  destruct PH as [P | r0 P | r0 P | r0 P | r0 P | r0 kk P | r0 P | r0 P | r0 kk P | r0 kk P | r0 kk P].
  - rewrite (id_cur _ _ _ P), (id_pend _ _ _ P) in PC. destruct (resp2 p s); auto. destruct PC as [PC|PC]; [congruence|].
    exfalso. destruct (resp1 p s); cbn in PC; lia.
  - apply X, (rq_pend _ _ _ _ P).
  - rewrite (ev_pend _ _ _ _ P) in PN. congruence.
  - rewrite (wt_pend _ _ _ _ P) in PN. congruence.
  - rewrite (rf_pend _ _ _ _ P) in PN. congruence.
  - apply X, (iv_pend _ _ _ _ _ P).
  - apply X, (il_pend _ _ _ _ P).
  - apply X, (fs_pend _ _ _ _ P).
  - apply X, (fl_pend _ _ _ _ _ _ (fr_c _ _ _ _ _ P)).
  - apply X, (fl_pend _ _ _ _ _ _ (fw_c _ _ _ _ _ P)).
  - apply X, (fl_pend _ _ _ _ _ _ (fx_c _ _ _ _ _ P)).
Qed.

Lemma left_pos : forall r NA tk s a tr k x, lft r NA tk s a tr k x -> 1 <= x.
Proof.
  intros r NA tk s a tr k x [(_ & todo & out & l & _ & _ & _ & _ & ->) | [(_ & _ & _ & ->) | (_ & _ & ->)]]; [apply crem_pos | |lia].
  destruct (is_some (resp1 p s)); lia.
Qed.

Lemma recv_none : forall a x a1, a_recv a x a1 -> a_cur a = None -> False.
Proof. intros a x a1 H E. inversion H; subst. discriminate E. Qed.
Lemma done_none : forall a a1, a_done p a a1 -> a_cur a = None -> False.
Proof. intros a a1 H E. inversion H; subst. discriminate E. Qed.
Lemma recv_pend : forall a x a1, a_recv a x a1 -> a_pend a1 = a_pend a.
Proof. intros a x a1 H. inversion H; subst. auto. Qed.
Lemma emit_pend : forall a x a1, a_emit a x a1 -> a_pend a = [] -> False.
Proof. intros a x a1 H E. inversion H; subst. discriminate E. Qed.
Lemma emit_cur : forall a x a1, a_emit a x a1 -> a_cur a1 = a_cur a.
Proof. intros a x a1 H. inversion H; subst. auto. Qed.

(** One cycle. *)
Lemma left_step : forall m0 s n m rq rs tr a i m' rq' rs' r NA tk k x, stok p m0 s n m rq rs tr a ->
  legal p s (a_outst a) i -> client_ok p [(i, output p s i)] ->
  (length (memresps tr) <= length (memreqs tr))%nat ->
  mem_trace p m rq rs [(i, output p s i)] m' rq' rs' ->
  (length (responses tr) < NA)%nat -> lft r NA tk s a tr k x ->
  let o := output p s i in let tr' := tr ++ [(i, o)] in
  let k' := k + (if is_some (o_mreq o) then 1 else 0) in let b := if productive tr i then 1 else 0 in
  (S (length (responses tr)) = NA /\ o_resp o <> None /\ o_mreq o = None /\ x = 1 /\ k = tk /\ (productive tr i = ready i)) \/
  (exists a' x', stok p m0 (next p s i) (S n) m' rq' rs' tr' a' /\
     lft r NA tk (next p s i) a' tr' k' x' /\ x' + b + svc r k <= x + svc r k' /\
     (ready i = true -> x' + b + svc r k = x + svc r k') /\ x + svc r k' <= x' + 1 + svc r k /\
     ((length (responses tr') < NA)%nat)).
Proof.
  intros m0 s n m rq rs tr a i m' rq' rs' r NA tk k x ST LG CL LE MT UN LF o tr' k' b.
  assert (AN : accepted tr <> []).
  { intros E. unfold lft in LF. rewrite E in LF. destruct LF as [(L & _) | [(L & _) | (L & _)]]; cbn in L; lia. }
  destruct (stok_adv _ _ _ _ _ _ _ _ _ _ _ _ ST AN LG CL LE MT) as (a' & PH & AC & PH' & ST'). fold o tr' in AC, ST'.
  destruct (stok_J p _ _ _ _ _ _ _ _ ST) as [_ OT].
  pose proof (counts _ _ _ _ _ _ _ _ ST) as CN. pose proof (counts _ _ _ _ _ _ _ _ ST') as CN'.
  pose proof (phase_pend p _ _ PH) as PP.
  assert (AC' : accepted tr' = accepted tr ++ (if i_req_en i then [i_req i] else [])).
  { unfold tr'. rewrite accepted_app. f_equal. unfold accepted. cbn. destruct (i_req_en i); auto. }
  assert (RS' : responses tr' = responses tr ++ opt_list (o_resp o)).
  { unfold tr'. rewrite responses_app. f_equal. unfold responses. cbn. apply app_nil_r. }
  assert (PB : forall out, a_outst a = out -> b = if ready i then memok out i else 0).
  { clear - OT. intros out <-. unfold b, productive, ready, memok. rewrite OT. destruct (i_resp_rdy i && i_mreq_rdy i), (a_outst a), (i_mresp_en i); reflexivity. }
  assert (RDY : ready i = true -> ostall2 s i = false).
  { unfold ready. intros H. rewrite ostall2_eq. destruct (i_resp_rdy i), (i_mreq_rdy i); try discriminate. apply andb_false_r. }
  destruct (ostall2 s i) eqn:SS.
  - (* stalled: nothing happens *)
    right. destruct (out_stall p s i SS) as [OR OM]. fold o in OR, OM.
    assert (NR : ready i = false) by (destruct (ready i); auto; discriminate RDY; auto).
    assert (B0 : b = 0) by (rewrite (PB _ eq_refl), NR; auto).
    assert (K' : k' = k) by (unfold k'; rewrite OM; cbn [is_some]; lia). rewrite K', B0.
    assert (RE : i_req_en i = false) by (eapply noreq_stall; eauto; rewrite stall01_eq, SS; apply orb_true_r).
    rewrite RE, app_nil_r in AC'. rewrite OR in RS'. cbn [opt_list] in RS'. rewrite app_nil_r in RS'.
    destruct LF as [(L & todo & out & l & CU & KT & KO & TK & EX) | [(L & CU & KK & EX) | (L & KK & EX)]].
    + destruct (stall_cur _ _ _ _ _ _ _ _ k PH LG SS AC PH' CU) as (_ & EC & todo' & out' & l' & CU' & L1 & L2 & L3 & L4).
      exists a', (crem r (next p s i) (len out') k). split; auto. split.
      { left. rewrite AC'. split; auto. exists todo', out', l'. rewrite EC. unfold len in *. rewrite L1. repeat split; auto; lia. }
      rewrite NR, RS'. split; [lia|]. split; [discriminate|]. split; lia.
    + pose proof (phase_none _ _ PH CU) as PI.
      assert (FI : fsm s <> F_INIT /\ t1 s <> TR_CACHE_INIT).
      { rewrite (id_fsm _ _ _ PI). split; [discriminate|]. intros E. pose proof (id_ci _ _ _ PI E) as X.
        rewrite ostall2_eq, X in SS. discriminate. }
      destruct FI as [FI TI]. pose proof (stall_same p s i SS FI TI RE) as SM.
      exists a', x. split; auto. split.
      { right. left. rewrite AC'. split; auto. rewrite (sm_resp1 _ _ _ SM). split; auto.
        assert (PC : (length (a_pend a) = length (a_pend a'))%nat).
        { destruct AC as (a1 & a2 & a3 & R1 & R2 & R3 & R4). unfold o_send in R2. rewrite OM, OR in R2. subst a2.
          unfold o_acc in R4. rewrite RE in R4. subst a3. unfold o_recv in R1.
          destruct (i_mresp_en i); [exfalso; exact (recv_none _ _ _ R1 CU)|]. subst a1.
          destruct R3 as [D|D]; [exfalso; exact (done_none _ _ D CU) | rewrite D; auto]. }
        rewrite CU in CN. rewrite AC', RS' in CN'. destruct (a_cur a'); auto. lia. }
      rewrite NR, RS'. split; [lia|]. split; [discriminate|]. split; lia.
    + exists a', 1. split; auto. split; [right; right; rewrite AC'; auto|].
      rewrite NR, RS'. split; [lia|]. split; [discriminate|]. split; lia.
  - destruct (out_nostall p s i SS) as [OR OM]. fold o in OR, OM.
    assert (PDE : o_resp o <> None -> (length (responses tr') = S (length (responses tr)))%nat).
    { intros H. rewrite RS', app_length. destruct (o_resp o); [cbn; lia|congruence]. }
    assert (PDN : (length (responses tr') <= S (length (responses tr)))%nat).
    { rewrite RS', app_length. destruct (o_resp o); cbn; lia. }
    destruct LF as [(L & todo & out & l & CU & KT & KO & TK & EX) | [(L & CU & KK & EX) | (L & KK & EX)]].
    + right. rewrite CU in CN.
      pose proof (PB _ (outst_cur _ _ _ _ _ CU)) as B.
      assert (RSP : is_some (o_resp o) = true -> a_pend a <> []).
      { intros H E. destruct AC as (a1 & a2 & a3 & R1 & R2 & _). unfold o_send in R2. destruct (o_resp o); [|discriminate].
        destruct (o_mreq o); [contradiction|]. apply (emit_pend _ _ _ R2). unfold o_recv in R1. destruct (i_mresp_en i).
        - rewrite (recv_pend _ _ _ R1). auto.
        - rewrite R1. auto. }
      assert (UN' : (length (responses tr') < NA)%nat).
      { rewrite RS', app_length. destruct (o_resp o) eqn:EO; cbn [opt_list length]; [|lia].
        assert (a_pend a <> []) by (apply RSP; auto). destruct (a_pend a); [congruence|]. cbn [length] in CN. lia. }
      pose proof (cur_advance _ _ _ _ _ _ _ _ _ PH LG SS AC PH' CU KT KO) as CA. cbv zeta in CA. fold o in CA.
      destruct CA as [(todo' & out' & l' & CU' & EC & RE & KT' & KO' & EQ) |
         [(NM & MO & RE & CU' & R1 & C3) | (NM & MO & C2 & D)]].
      * fold k' in KT', KO', EQ. exists a', (crem r (next p s i) (len out') k'). split; auto. split.
        { left. rewrite AC', RE, app_nil_r. split; auto. exists todo', out', l'. rewrite EC. auto. }
        rewrite B, EX. split; [destruct (ready i); lia|]. assert (MO1 : memok out i <= 1) by (unfold memok; destruct out; [lia | destruct (i_mresp_en i); lia]).
        split; [intros ->; lia|]. split; [lia|auto].
      * assert (K' : k' = k) by (unfold k'; rewrite NM; cbn [is_some]; lia). rewrite K'.
        assert (KK : k = tk) by (destruct (acyc_cur _ _ _ _ _ _ _ _ AC CU) as [(RF & _ & ? & ? & ? & CF & _) | (_ & T0 & _)]; [exfalso; congruence | subst todo; unfold len in KT at 1; cbn [length] in KT; lia]).
        exists a', 2. split; auto. split; [right; left; rewrite AC', RE, app_nil_r, R1; auto|].
        rewrite B, MO, EX, C3. split; [destruct (ready i); lia|]. split; [intros ->; lia|]. split; [lia|auto].
      * assert (K' : k' = k) by (unfold k'; rewrite NM; cbn [is_some]; lia). rewrite K'.
        assert (KK : k = tk) by (destruct (acyc_cur _ _ _ _ _ _ _ _ AC CU) as [(RF & _ & ? & ? & ? & CF & _) | (_ & T0 & _)]; [exfalso; destruct D as [D | [D _]]; congruence | subst todo; unfold len in KT at 1; cbn [length] in KT; lia]).
        exists a', 1. split; auto. split.
        { destruct D as [RE | (CU' & R1)].
          - right. right. rewrite AC', RE, app_length. cbn [length]. split; [lia|auto].
          - destruct (i_req_en i) eqn:RE.
            + right. right. rewrite AC', app_length. cbn [length]. split; [lia|auto].
            + right. left. rewrite AC', app_nil_r, R1. auto. }
        rewrite B, MO, EX, C2. split; [destruct (ready i); lia|]. split; [intros ->; lia|]. split; [lia|auto].
    + pose proof (phase_none _ _ PH CU) as PI. rewrite CU in CN.
      assert (OA : a_outst a = []) by (unfold a_outst; rewrite CU; auto).
      pose proof (PB _ OA) as B. rewrite OA in LG. unfold memok in B.
      assert (PR : productive tr i = ready i).
      { unfold productive. rewrite OT, OA. apply andb_true_r. }
      rewrite (id_mem2 _ _ _ PI) in OM.
      destruct (is_some (resp1 p s)) eqn:R1.
      * right. assert (K' : k' = k) by (unfold k'; rewrite OM; cbn [is_some]; lia). rewrite K'.
        assert (UN' : (length (responses tr') < NA)%nat).
        { rewrite (id_pend _ _ _ PI), app_length in CN. rewrite RS', OR, app_length. destruct (resp1 p s); [|discriminate].
          destruct (resp2 p s); cbn in *; lia. }
        exists a', 1. split; auto. split.
        { destruct (i_req_en i) eqn:RE.
          - right. right. rewrite AC', app_length. cbn [length]. split; [lia|auto].
          - right. left. rewrite AC', app_nil_r. split; auto.
            destruct (idle_quiet _ (id_t1 _ _ _ PI)) as (QT & N1 & N2).
            assert (T1' : t1 (next p s i) = TR_INVALID).
            { rewrite (an_t1 p s i SS (quiet_evict p s QT)). apply trans0_ready_idle; auto.
              - apply (id_fsm _ _ _ PI).
              - apply mr_val_mrv. apply (id_mrv _ _ _ PI).
              - apply quiet_whc; auto. }
            split.
            + destruct AC as (a1 & a2 & a3 & Z1 & Z2 & Z3 & Z4). unfold o_recv in Z1. rewrite (noresp p s i LG) in Z1. subst a1.
              unfold o_acc in Z4. rewrite RE in Z4. subst a3. unfold o_send in Z2. rewrite OM in Z2.
              assert (CU2 : a_cur a2 = None) by (destruct (o_resp o); [rewrite (emit_cur _ _ _ Z2); auto | rewrite Z2; auto]).
              destruct Z3 as [D|D]; [exfalso; exact (done_none _ _ D CU2) | rewrite D; auto].
            + unfold resp1. rewrite T1'. auto. }
        rewrite B, EX. split; [destruct (ready i); lia|]. split; [intros ->; lia|]. split; [lia|auto].
      * left. assert (R2 : resp2 p s <> None).
        { intros E. rewrite (id_pend _ _ _ PI), E in CN. destruct (resp1 p s); [discriminate|]. cbn in CN. lia. }
        rewrite (id_pend _ _ _ PI), app_length in CN. destruct (resp1 p s); [discriminate|].
        rewrite OR. split; [destruct (resp2 p s); [cbn in CN; lia|congruence]|]. split; auto.
    + left. 
      assert (X : a_pend a <> [] /\ (a_cur a <> None \/ length (a_pend a) = 2%nat)).
      { destruct (a_cur a).
        - split; [|left; discriminate]. intros E. rewrite E in CN. cbn in CN. lia.
        - split; [intros E; rewrite E in CN; cbn in CN; lia|]. right. lia. }
      destruct X as [X1 X2]. pose proof (oldest_resp2 _ _ PH X1 X2) as R2.
      assert (RN : o_resp o <> None) by (rewrite OR; destruct (resp2 p s); [discriminate|discriminate R2]).
      split; [destruct (a_cur a); lia|]. split; auto.
      assert (OMN : o_mreq o = None).
      { destruct AC as (a1 & a2 & a3 & _ & Z2 & _). unfold o_send in Z2. destruct (o_mreq o); auto. destruct (o_resp o); [contradiction|congruence]. }
      split; auto. split; auto. split; auto.
      (* nothing is outstanding *)
      unfold productive. rewrite OT. replace (a_outst a) with (@nil mreq); [apply andb_true_r|].
      destruct (stok_J p _ _ _ _ _ _ _ _ ST) as [JJ _].
      destruct (J_hist p _ _ _ _ _ _ _ _ JJ) as (A0 & c & mb & Q & pd & H & PD & _ & C).
      unfold a_outst. destruct C as [(E & E2 & _) | (r1 & ex & qs & todo1 & out1 & l1 & E & _ & E2 & _ & _ & [F|F] & LO & _)]; rewrite E2; auto.
      * congruence.
      * rewrite F in LO. cbn in LO. destruct out1; auto. cbn in LO. lia.
Qed.
Lemma no_dealloc : forall s i, msn s = 0 -> cs0_dealloc p s i = false.
Proof.
  intros s i MS. unfold cs0_dealloc, cs0, trans0, mshr_empty. rewrite MS. cbn [N.eqb negb andb].
  rewrite ?andb_false_r. 
  destruct (fsm s); auto; destruct (write_hit_clean p s); auto;
    repeat match goal with |- context [match (if ?b then _ else _) with _ => _ end] => destruct b; auto end.
Qed.
Lemma accept_lft : forall s0 is i m0 m rq rs, sys_run p s0 (is ++ [i]) m0 m rq rs -> i_req_en i = true ->
  let tr := trace_of p s0 (is ++ [i]) in let s := fst (run p s0 (is ++ [i])) in
  exists a, stok p m0 s (S (length is)) m rq rs tr a /\ a_cur a = Some (mkCur (i_req i) (tl_reqs p (a_c a) (i_req i)) [] 0) /\
    lft (i_req i) (length (accepted tr)) (len (tl_reqs p (a_c a) (i_req i))) s a tr 0 (svc (i_req i) 0).
Proof.
  intros s0 is i m0 m rq rs R RE tr s.
  destruct (sys_cycle p W _ _ _ _ _ _ _ R) as (m1 & rq1 & rs1 & a & a' & R1 & ST & LG & AC & ST' & MT).
  exists a'. unfold s. rewrite run_snoc. split; [exact ST'|].
  destruct AC as (a1 & a2 & a3 & AR & AS & AD & AA). unfold o_acc in AA. rewrite RE in AA.
  inversion AA as [c r pd WT E1 E2 E3]. set (s1 := fst (run p s0 is)) in *.
  destruct (lg_req _ _ _ _ LG RE) as [RDY _]. destruct (req_rdy_inv p _ _ RDY) as (WH & ST01 & MS & AL).
  rewrite stall01_eq in ST01. apply orb_false_elim in ST01. destruct ST01 as [EV OS].
  assert (MS' : msn (next p s1 i) = 0).
  { rewrite an_msn, AL, MS by auto. rewrite (no_dealloc s1 i MS). auto. }
  assert (EV' : ev2 (next p s1 i) = false) by (rewrite (an_ev2 p s1 i OS); auto).
  assert (PH : phase p (next p s1 i) a').
  { inversion ST' as [c0 k CS PI NK Z1 Z2 Z3 Z4 EM EQ ES EA | a0 PH NK JA OA EA]; [|auto].
    subst. discriminate EA. }
  split; [reflexivity|]. cbn [a_c]. left. split; [auto|]. exists (tl_reqs p c (i_req i)), [], 0.
  assert (CU : a_cur a' = Some (mkCur (i_req i) (tl_reqs p c (i_req i)) [] 0)) by (rewrite <- E3; auto).
  split; [auto|]. split; [cbn [a_c]; lia|]. split; [cbn; lia|]. split; [auto|].
  symmetry. unfold crem, svc.
  destruct PH as [P | r0 P | r0 P | r0 P | r0 P | r0 kk P | r0 P | r0 P | r0 kk P | r0 kk P | r0 kk P].
  - rewrite (id_cur _ _ _ P) in CU. discriminate.
  - assert (r0 = i_req i) by (rewrite (rq_cur _ _ _ _ P) in CU; inversion CU; auto). subst r0.
    pose proof (rq_ty _ _ _ _ P) as TY. rewrite (rq_t1 _ _ _ _ P), EV'.
    destruct (N.eqb_spec (cq_type (i_req i)) T_INV) as [E|E]; [rewrite E in TY; discriminate|].
    destruct (N.eqb_spec (cq_type (i_req i)) T_FLUSH) as [E'|E']; [rewrite E' in TY; discriminate|].
    destruct (req_trans_cases _ TY) as [(_ & -> & _) | [(_ & -> & _) | (_ & -> & _)]]; auto.
  - rewrite (ev_ev2 _ _ _ _ P) in EV'. discriminate.
  - rewrite (wt_msn _ _ _ _ P) in MS'. discriminate.
  - rewrite (rf_msn _ _ _ _ P) in MS'. discriminate.
  - assert (r0 = i_req i) by (rewrite (iv_cur _ _ _ _ _ P) in CU; inversion CU; auto). subst r0.
    rewrite (iv_ty _ _ _ _ _ P), (iv_fsm _ _ _ _ _ P), (iv_ctr _ _ _ _ _ P). pose proof (total_ge2 p W).
    destruct (iv_t1 _ _ _ _ _ P) as [(-> & -> & _) | (_ & X & _)]; [|congruence]. unfold last_line.
    change (T_INV =? T_INV) with true. cbn iota. lia.
  - rewrite (il_msn _ _ _ _ P) in MS'. discriminate.
  - assert (r0 = i_req i) by (rewrite (fs_cur _ _ _ _ P) in CU; inversion CU; auto). subst r0.
    rewrite (fs_ty _ _ _ _ P), (fs_t1 _ _ _ _ P). change (T_FLUSH =? T_INV) with false. change (T_FLUSH =? T_FLUSH) with true. cbn iota. lia.
  - rewrite (fl_msn _ _ _ _ _ _ (fr_c _ _ _ _ _ P)) in MS'. discriminate.
  - rewrite (fl_msn _ _ _ _ _ _ (fw_c _ _ _ _ _ P)) in MS'. discriminate.
  - rewrite (fl_msn _ _ _ _ _ _ (fx_c _ _ _ _ _ P)) in MS'. discriminate.
Qed.

(** Runs after the cycle in which the request is accepted. *)
Lemma service_inv : forall is2 is i s0 m0 m rq rs, sys_run p s0 ((is ++ [i]) ++ is2) m0 m rq rs -> i_req_en i = true ->
  let tr1 := trace_of p s0 (is ++ [i]) in let tr2 := trace_of p (fst (run p s0 (is ++ [i]))) is2 in
  let k := N.of_nat (length (memreqs tr2)) in let d := N.of_nat (productive_cycles tr1 tr2) in
  (length (responses (tr1 ++ tr2)) < length (accepted tr1))%nat ->
  exists m1 rq1 rs1 a1, stok p m0 (fst (run p s0 (is ++ [i]))) (S (length is)) m1 rq1 rs1 tr1 a1 /\
    a_cur a1 = Some (mkCur (i_req i) (tl_reqs p (a_c a1) (i_req i)) [] 0) /\
  exists a x, stok p m0 (fst (run p s0 ((is ++ [i]) ++ is2))) (length ((is ++ [i]) ++ is2)) m rq rs (tr1 ++ tr2) a /\
    lft (i_req i) (length (accepted tr1)) (len (tl_reqs p (a_c a1) (i_req i))) (fst (run p s0 ((is ++ [i]) ++ is2))) a (tr1 ++ tr2) k x /\
    d + x <= svc (i_req i) k /\ (Forall (fun i => ready i = true) is2 -> d + x = svc (i_req i) k) /\
    svc (i_req i) k <= N.of_nat (length is2) + x.
Proof.
  induction is2 as [|j is2 IH] using rev_ind; intros is i s0 m0 m rq rs R RE tr1 tr2 k d UN.
  - rewrite app_nil_r in *. destruct (accept_lft _ _ _ _ _ _ _ R RE) as (a & ST & CU & LF).
    assert (T2 : tr2 = []) by reflexivity. 
    assert (K0 : k = 0) by (unfold k; rewrite T2; reflexivity). assert (D0 : d = 0) by (unfold d; rewrite T2; reflexivity).
    rewrite T2, app_nil_r, K0, D0. exists m, rq, rs, a. split; [exact ST|]. split; [exact CU|]. exists a, (svc (i_req i) 0). 
    rewrite app_length. cbn [length]. replace (length is + 1)%nat with (S (length is)) by lia.
    split; [exact ST|]. split; [exact LF|]. split; [lia|]. split; [auto|cbn; lia].
  - rewrite app_assoc in R. destruct (sys_app p _ _ _ _ _ _ _ R) as (m1 & rq1 & rs1 & R1 & M2 & C2).
    set (isx := (is ++ [i]) ++ is2) in *. set (sx := fst (run p s0 isx)) in *.
    rewrite trace_one in M2, C2.
    set (t2 := trace_of p (fst (run p s0 (is ++ [i]))) is2).
    assert (E2 : tr2 = t2 ++ [(j, output p sx j)]).
    { unfold tr2, t2. rewrite trace_snoc. unfold sx, isx. rewrite (run_app p (is ++ [i]) is2 s0). reflexivity. }
    assert (TX : tr1 ++ t2 = trace_of p s0 isx) by (unfold tr1, t2, isx; symmetry; apply trace_app).
    assert (UN1 : (length (responses (tr1 ++ t2)) < length (accepted tr1))%nat).
    { rewrite E2, app_assoc, responses_app, app_length in UN. lia. }
    destruct (IH is i s0 m0 m1 rq1 rs1 R1 RE UN1) as (m9 & rq9 & rs9 & a9 & ST9 & CU9 & a & x & ST & LF & LE & EQ & LB). fold isx sx tr1 t2 in ST, LF, LE, EQ, LB.
    destruct (legal_snoc p _ _ _ _ (sys_legal0 p _ _ _ _ _ _ R)) as [_ LG].
    rewrite <- (sys_outs p _ _ _ _ _ _ R1) in LG. fold sx in LG. rewrite <- TX in LG.
    destruct (stok_J p _ _ _ _ _ _ _ _ ST) as [_ OT]. rewrite OT in LG.
    assert (RL : (length (memresps (tr1 ++ t2)) <= length (memreqs (tr1 ++ t2)))%nat).
    { rewrite TX. eapply sys_resps_le; eauto. }
    pose proof (left_step _ _ _ _ _ _ _ _ _ _ _ _ _ _ _ _ _ ST LG C2 RL M2 UN1 LF) as STEP. cbv zeta in STEP.
    rewrite E2, app_assoc in UN.
    destruct STEP as [(E & RN & _) | (a' & x' & ST' & LF' & LE' & EQ' & LB' & _)].
    { exfalso. rewrite responses_app, app_length in UN. unfold responses at 2 in UN. cbn [flat_map snd] in UN.
      destruct (o_resp (output p sx j)); [|congruence]. cbn in UN. lia. }
    assert (RS : fst (run p s0 ((is ++ [i]) ++ is2 ++ [j])) = next p sx j) by (rewrite app_assoc; apply run_snoc).
    exists m9, rq9, rs9, a9. split; [exact ST9|]. split; [exact CU9|]. rewrite RS. exists a', x'. 
    assert (KK : k = N.of_nat (length (memreqs t2)) + (if is_some (o_mreq (output p sx j)) then 1 else 0)).
    { unfold k. rewrite E2, memreqs_app, app_length. unfold memreqs at 2. cbn [flat_map snd].
      destruct (o_mreq (output p sx j)); cbn; lia. }
    assert (DD : d = N.of_nat (productive_cycles tr1 t2) + (if productive (tr1 ++ t2) j then 1 else 0)).
    { unfold d. rewrite E2, productive_app. cbn [productive_cycles fst]. destruct (productive (tr1 ++ t2) j); lia. }
    split.
    { rewrite E2, (app_assoc tr1 t2). replace (length ((is ++ [i]) ++ is2 ++ [j])) with (S (length isx)); [exact ST'|].
      unfold isx. rewrite !app_length. cbn [length]. lia. }
    rewrite E2, (app_assoc tr1 t2), KK, DD. split; [exact LF'|]. split; [lia|]. split.
    + intros F. apply Forall_app in F. destruct F as [F1 F2]. specialize (EQ F1). specialize (EQ' (Forall_inv F2)). lia.
    + rewrite app_length. cbn [length]. lia.
Qed.

(** Answered in time ... *)
Theorem service_bound : forall is2 is i s0 m0 m rq rs, sys_run p s0 ((is ++ [i]) ++ is2) m0 m rq rs -> i_req_en i = true ->
  let tr1 := trace_of p s0 (is ++ [i]) in let tr2 := trace_of p (fst (run p s0 (is ++ [i]))) is2 in
  (service p (i_req i) (length (memreqs tr2)) <= productive_cycles tr1 tr2)%nat ->
  (length (accepted tr1) <= length (responses (tr1 ++ tr2)))%nat.
Proof.
  intros is2 is i s0 m0 m rq rs R RE tr1 tr2 LE.
  destruct (Nat.le_gt_cases (length (accepted tr1)) (length (responses (tr1 ++ tr2)))) as [|GT]; auto. exfalso.
  destruct (service_inv is2 is i s0 m0 m rq rs R RE GT) as (_ & _ & _ & a9 & _ & _ & a & x & _ & LF & LX & _ & _). fold tr1 tr2 in LF, LX.
  pose proof (left_pos _ _ _ _ _ _ _ _ LF). rewrite <- svc_ok in LX. lia.
Qed.

(** ... and not earlier, if both sides are always ready. *)
Theorem service_exact : forall is2 is i j s0 m0 m rq rs, sys_run p s0 ((is ++ [i]) ++ is2 ++ [j]) m0 m rq rs -> i_req_en i = true ->
  let tr1 := trace_of p s0 (is ++ [i]) in let s1 := fst (run p s0 (is ++ [i])) in
  let tr2 := trace_of p s1 (is2 ++ [j]) in
  Forall (fun i => i_resp_rdy i && i_mreq_rdy i = true) (is2 ++ [j]) ->
  (length (responses (tr1 ++ trace_of p s1 is2)) < length (accepted tr1))%nat ->
  (length (accepted tr1) <= length (responses (tr1 ++ tr2)))%nat ->
  productive_cycles tr1 tr2 = service p (i_req i) (length (memreqs tr2)) /\
  exists m1 rq1 rs1 a1, stok p m0 s1 (S (length is)) m1 rq1 rs1 tr1 a1 /\
    a_cur a1 = Some (mkCur (i_req i) (tl_reqs p (a_c a1) (i_req i)) [] 0) /\ length (memreqs tr2) = length (tl_reqs p (a_c a1) (i_req i)).
Proof.
  intros is2 is i j s0 m0 m rq rs R RE tr1 s1 tr2 F UN AN.
  pose proof R as RR. rewrite app_assoc in RR.
  destruct (sys_app p _ _ _ _ _ _ _ RR) as (m1 & rq1 & rs1 & R1 & M2 & C2).
  set (isx := (is ++ [i]) ++ is2) in *. set (sx := fst (run p s0 isx)) in *. rewrite trace_one in M2, C2.
  apply Forall_app in F. destruct F as [F1 F2]. 
  destruct (service_inv is2 is i s0 m0 m1 rq1 rs1 R1 RE UN) as (m9 & rq9 & rs9 & a9 & ST9 & CU9 & a & x & ST & LF & _ & EQ & _). specialize (EQ F1).
  fold s1 isx sx tr1 in ST, LF, EQ. set (t2 := trace_of p s1 is2) in *.
  assert (E2 : tr2 = t2 ++ [(j, output p sx j)]).
  { unfold tr2, t2. rewrite trace_snoc. unfold sx, isx, s1. rewrite (run_app p (is ++ [i]) is2 s0). reflexivity. }
  assert (TX : tr1 ++ t2 = trace_of p s0 isx) by (unfold tr1, t2, s1, isx; symmetry; apply trace_app).
  destruct (legal_snoc p _ _ _ _ (sys_legal0 p _ _ _ _ _ _ RR)) as [_ LG].
  rewrite <- (sys_outs p _ _ _ _ _ _ R1) in LG. fold sx in LG. rewrite <- TX in LG.
  destruct (stok_J p _ _ _ _ _ _ _ _ ST) as [_ OT]. rewrite OT in LG.
  assert (RL : (length (memresps (tr1 ++ t2)) <= length (memreqs (tr1 ++ t2)))%nat).
  { rewrite TX. eapply sys_resps_le; eauto. }
  pose proof (left_step _ _ _ _ _ _ _ _ _ _ _ _ _ _ _ _ _ ST LG C2 RL M2 UN LF) as STEP. cbv zeta in STEP.
  rewrite E2, app_assoc in AN.
  destruct STEP as [(_ & _ & NM & X1 & KK & PR) | (a' & x' & _ & _ & _ & _ & _ & L)]; [|lia].
  rewrite E2, productive_app, memreqs_app, app_length. cbn [productive_cycles fst]. rewrite PR. unfold ready. rewrite (Forall_inv F2).
  unfold memreqs at 2. cbn [flat_map snd]. rewrite NM. cbn [opt_list app length]. rewrite !Nat.add_0_r.
  split; [rewrite <- svc_ok, X1 in EQ; lia|]. exists m9, rq9, rs9, a9. split; [exact ST9|]. split; [exact CU9|]. unfold memreqs at 2. cbn [flat_map snd]. rewrite NM. cbn. unfold len in KK. lia.
Qed.

(** The time is known when the request is accepted: from the requests accepted so far. *)
Lemma accept_traffic : forall m0 s n m rq rs tr a r, stok p m0 s n m rq rs tr a -> a_cur a = Some (mkCur r (tl_reqs p (a_c a) r) [] 0) ->
  exists A0 G, accepted tr = A0 ++ [r] /\ traffic p none lru_empty m0 (accepted tr) (G ++ [tl_reqs p (a_c a) r]) /\ concat G = memreqs tr.
Proof.
  intros m0 s n m rq rs tr a r ST CU. destruct (stok_J p _ _ _ _ _ _ _ _ ST) as [JA _].
  destruct (J_hist p _ _ _ _ _ _ _ _ JA) as (A0 & c1 & mb & Q & pd' & HH & EP & EC & C).
  destruct C as [(_ & X & _) | (r' & ex & qs & todo & out & l9 & E & WF' & CU2 & TR & EM & PD & LO & LQ & F)]; [congruence|].
  rewrite CU in CU2. inversion CU2; subst r' todo out l9. clear CU2. subst c1. set (c := a_c a) in *.
  assert (EXQ : ex = [] /\ qs = []).
  { rewrite app_assoc in TR. assert (L : length (tl_reqs p c r) = (length (ex ++ qs) + length (tl_reqs p c r))%nat) by (rewrite TR at 1; apply app_length).
    destruct ex, qs; cbn in L; try lia; auto. }
  destruct EXQ; subst ex qs. cbn [app map] in *. rewrite app_nil_r in F.
  destruct (hist_flat p W _ _ _ _ _ _ HH) as (I & V & _).
  destruct (hist_traffic p W _ _ _ _ _ _ HH _ F) as (G & LN & CG & TG & PG & LI & _).
  destruct (traf_step p W c mb _ _ (flat_mem p m0 A0) r 0 I PG LI V WF') as [T1 _].
  exists A0, G. split; auto. split; auto. rewrite E. apply traf_snoc; auto.
Qed.

(** Only so many memory requests are made for it. *)
Theorem service_traffic : forall is2 is i s0 m0 m rq rs, sys_run p s0 ((is ++ [i]) ++ is2) m0 m rq rs -> i_req_en i = true ->
  let tr1 := trace_of p s0 (is ++ [i]) in let tr2 := trace_of p (fst (run p s0 (is ++ [i]))) is2 in
  (length (responses (tr1 ++ tr2)) < length (accepted tr1))%nat ->
  (length (memreqs tr2) <= max_traffic p (i_req i))%nat.
Proof.
  intros is2 is i s0 m0 m rq rs R RE tr1 tr2 UN.
  destruct (service_inv is2 is i s0 m0 m rq rs R RE UN) as (_ & _ & _ & a9 & _ & _ & a & x & _ & LF & _). fold tr1 tr2 in LF.
  pose proof (lft_tk _ _ _ _ _ _ _ _ LF). pose proof (tl_reqs_max (a_c a9) (i_req i)). unfold mt in H0. lia.
Qed.
End P.

(** *** Waiting for memory *)
Lemma outst_count : forall tr io, (length (memresps (tr ++ [io])) <= length (memreqs (tr ++ [io])))%nat ->
  (length (memresps tr) <= length (memreqs tr))%nat ->
  (length (outstanding (tr ++ [io])) + (if i_mresp_en (fst io) then 1 else 0) = length (outstanding tr) + length (memreqs [io]))%nat.
Proof.
  intros tr io L1 L2. unfold outstanding. rewrite !skipn_length, memreqs_app, memresps_app, !app_length in *.
  unfold memresps at 2 in L1. unfold memresps at 2. cbn [flat_map] in *. rewrite app_nil_r in *.
  destruct (i_mresp_en (fst io)); cbn [length] in *; lia.
Qed.

Definition run_wait (tr0 tr : trace) (t : nat) : Prop :=
  exists u v, tr = u ++ v /\ length v = t /\
    forall a io b, v = a ++ io :: b -> outstanding (tr0 ++ u ++ a) <> [] /\ i_mresp_en (fst io) = false.

Lemma waits_inv : forall L tr0 tr, answers_within L tr0 tr ->
  (forall a b, tr = a ++ b -> (length (memresps (tr0 ++ a)) <= length (memreqs (tr0 ++ a)))%nat) ->
  Forall (fun io => i_resp_rdy (fst io) && i_mreq_rdy (fst io) = true) tr ->
  exists t, run_wait tr0 tr t /\ (t <= L)%nat /\ (t <> 0%nat -> outstanding (tr0 ++ tr) <> []) /\
    (length tr + L * length (outstanding (tr0 ++ tr)) <=
     productive_cycles tr0 tr + t + L * (length (outstanding tr0) + length (memreqs tr)))%nat.
Proof.
  intros L tr0 tr. induction tr as [|io tr IH] using rev_ind; intros AW LE F.
  - exists 0%nat. rewrite app_nil_r. cbn. split; [|lia]. exists [], []. split; auto. split; auto. intros [|] ? ? E; discriminate E.
  - assert (AW' : answers_within L tr0 tr).
    { intros u1 u2 u3 E. apply (AW u1 u2 (u3 ++ [io])). rewrite E, <- !app_assoc. auto. }
    apply Forall_app in F. destruct F as [F FI].
    assert (LE' : forall a b, tr = a ++ b -> (length (memresps (tr0 ++ a)) <= length (memreqs (tr0 ++ a)))%nat).
    { intros a b E. apply (LE a (b ++ [io])). rewrite E, <- app_assoc. auto. }
    destruct (IH AW' LE' F) as (t & (u & v & EU & LV & WV) & TL & TO & B).
    pose proof (outst_count (tr0 ++ tr) io) as OC. rewrite <- app_assoc in OC.
    specialize (OC (LE _ [] (eq_sym (app_nil_r _))) (LE' tr [] (eq_sym (app_nil_r _)))).
    rewrite productive_app. cbn [productive_cycles]. rewrite memreqs_app, !app_length. cbn [length].
    unfold productive. rewrite (Forall_inv FI). cbn [andb].
    destruct (match outstanding (tr0 ++ tr) with [] => true | _ => i_mresp_en (fst io) end) eqn:PR.
    + exists 0%nat. split.
      { exists (tr ++ [io]), []. rewrite app_nil_r. split; auto. split; auto. intros [|] ? ? E; discriminate E. }
      split; [lia|]. split; [congruence|].
      destruct (outstanding (tr0 ++ tr)) as [|q l] eqn:OT.
      * assert (t = 0%nat) by (destruct t; auto; exfalso; apply TO; auto). subst t.
        destruct (i_mresp_en (fst io)); cbn [length] in *; nia.
      * rewrite PR in OC. nia.
    + assert (OT : outstanding (tr0 ++ tr) <> []) by (intros E; rewrite E in PR; discriminate).
      assert (EN : i_mresp_en (fst io) = false) by (destruct (outstanding (tr0 ++ tr)); [discriminate|auto]).
      rewrite EN in OC. exists (S t). split; [|split; [|split; [|nia]]].
      * exists u, (v ++ [io]). rewrite EU, <- app_assoc. split; auto. rewrite app_length. cbn [length]. split; [lia|].
        intros a x b E. destruct b as [|y b] using rev_ind.
        -- apply app_inj_tail in E. destruct E as [<- <-]. rewrite <- EU. auto.
        -- rewrite app_comm_cons, app_assoc in E. apply app_inj_tail in E. destruct E as [E _]. eapply WV; eauto.
      * destruct (Nat.le_gt_cases (S t) L) as [|GT]; auto. exfalso.
        assert (t = L) by lia. subst t.
        destruct (AW u (v ++ [io]) []) as (a & x & b & E & C).
        -- rewrite EU, app_nil_r, app_assoc. auto.
        -- rewrite app_length. cbn [length]. lia.
        -- destruct b as [|y b] using rev_ind.
           ++ apply app_inj_tail in E. destruct E as [<- <-]. rewrite <- EU in C. destruct C as [C|C]; congruence.
           ++ rewrite app_comm_cons, app_assoc in E. apply app_inj_tail in E. destruct E as [E _].
              destruct (WV a x b E) as [X Y]. destruct C as [C|C]; congruence.
      * intros _ E. rewrite E in OC. destruct (outstanding (tr0 ++ tr)); [congruence|]. cbn [length] in OC. lia.
Qed.

Lemma waits : forall L tr0 tr, answers_within L tr0 tr ->
  (forall a b, tr = a ++ b -> (length (memresps (tr0 ++ a)) <= length (memreqs (tr0 ++ a)))%nat) ->
  Forall (fun io => i_resp_rdy (fst io) && i_mreq_rdy (fst io) = true) tr ->
  (length tr <= productive_cycles tr0 tr + L * (length (outstanding tr0) + length (memreqs tr)))%nat.
Proof.
  intros L tr0 tr AW LE F. destruct (waits_inv L tr0 tr AW LE F) as (t & _ & TL & TO & B).
  destruct t; [lia|]. destruct (outstanding (tr0 ++ tr)); [exfalso; apply TO; auto|]. cbn [length] in B. nia.
Qed.
