(** Lemmas behind the property files: memory traffic, initialisation, uniqueness,
    flush. *)
From Coq Require Import Arith NArith List Bool Lia.
From Verif Require Import Bits Params Msg Units Rtl Mem Spec System Tl ParamsProofs RtlLemmas RefineInv RefineStall RefineProofs
  RefineAdv1 ViewDefs ViewProofs SysProofs SysFacts Facts1.
Import ListNotations.
Open Scope N_scope.

Section F.
Variable p : params.
Hypothesis W : wf_params p.

(** *** C12 *)
Definition nonwrites (l : list mreq) : list mreq := filter (fun q => negb (mq_type q =? T_WRITE)) l.

Lemma acks_nonwrites : forall l, acks l -> nonwrites l = [].
Proof. induction 1; auto. unfold nonwrites in *. cbn [filter]. rewrite H, N.eqb_refl. auto. Qed.

Lemma tl_reqs_le2 : forall c r, cq_type r <> T_FLUSH -> (length (tl_reqs p c r) <= 2)%nat.
Proof.
  intros c r T. unfold tl_reqs. destruct (N.eqb_spec (cq_type r) T_FLUSH); [contradiction|].
  destruct (cq_type r =? T_INV); [cbn; lia|].
  destruct (tl_isamo r), (tl_evict p c r), (tl_hit p c r); cbn; lia.
Qed.

(** outstanding requests in each phase *)
Lemma phase_out : forall s a, phase p s a ->
  (length (nonwrites (a_outst a)) <= 1)%nat /\
  (forall r todo out l, a_cur a = Some (mkCur r todo out l) -> cq_type r = T_FLUSH -> (length out <= 1)%nat).
Proof.
  intros s a P. unfold a_outst. destruct P as [P | r P | r P | r P | r P | r k P | r P | r P | r k P | r k P | r k P].
  - rewrite (id_cur _ _ _ P). cbn. split; [lia | discriminate].
  - rewrite (rq_cur _ _ _ _ P). cbn. split; [lia|]. intros. inversion H; subst. cbn. lia.
  - rewrite (ev_cur _ _ _ _ P). cbn. split; [lia|]. intros. inversion H; subst. cbn. lia.
  - assert (NF : cq_type r <> T_FLUSH).
    { intro E. pose proof (wt_ty _ _ _ _ P) as T. rewrite E in T. discriminate. }
    destruct (wt_cur _ _ _ _ P) as [(_ & _ & _ & out & l & AK & E) | [(_ & _ & out & q & l & AK & NW & E) | (_ & _ & E)]];
      rewrite E; cbn [u_out]; (split; [|intros ? ? ? ? X Y; inversion X; subst; contradiction]).
    + rewrite acks_nonwrites; auto.
    + unfold nonwrites. rewrite filter_app. fold (nonwrites out). rewrite acks_nonwrites by auto. cbn.
      destruct (mq_type q =? T_WRITE); cbn; lia.
    + cbn. lia.
  - destruct (rf_cur _ _ _ _ P) as (l & E & _). rewrite E. cbn. split; [lia|]. intros. inversion H; subst. cbn. lia.
  - rewrite (iv_cur _ _ _ _ _ P). cbn. split; [lia|]. intros. inversion H; subst. cbn. lia.
  - rewrite (il_cur _ _ _ _ P). cbn. split; [lia|]. intros. inversion H; subst. cbn. lia.
  - rewrite (fs_cur _ _ _ _ P). cbn. split; [lia|]. intros. inversion H; subst. cbn. lia.
  - destruct (fr_cur _ _ _ _ _ P) as (l & E). rewrite E. cbn. split; [lia|]. intros. inversion H; subst. cbn. lia.
  - destruct (fw_cur _ _ _ _ _ P) as [(o & e & l & _ & _ & _ & _ & E & _) | [(q & l & _ & _ & T & E & _) | (l & _ & _ & _ & E & _)]];
      rewrite E; cbn; (split; [try destruct (mq_type q =? T_WRITE); cbn; lia|]); intros; inversion H; subst; cbn; lia.
  - destruct (fx_cur _ _ _ _ _ P) as (l & E). rewrite E. cbn. split; [lia|]. intros. inversion H; subst. cbn. lia.
Qed.

Theorem sys_outst : forall s0 is m0 m rq rs, sys_run p s0 is m0 m rq rs ->
  let tr := trace_of p s0 is in
  (length (outstanding tr) <= 2)%nat /\ (length (nonwrites (outstanding tr)) <= 1)%nat /\
  (forall A r, accepted tr = A ++ [r] -> cq_type r = T_FLUSH -> (length (outstanding tr) <= 1)%nat).
Proof.
  intros s0 is m0 m rq rs R tr. destruct (sys_state p W _ _ _ _ _ _ R) as (a & ST).
  destruct (stok_J p _ _ _ _ _ _ _ _ ST) as [JJ OT]. fold tr in JJ, OT. rewrite OT.
  assert (PO : (length (nonwrites (a_outst a)) <= 1)%nat /\
    (forall r todo out l, a_cur a = Some (mkCur r todo out l) -> cq_type r = T_FLUSH -> (length out <= 1)%nat)).
  { inversion ST; subst; [cbn; split; [lia|discriminate] | eapply phase_out; eauto]. }
  destruct PO as [P1 P2].
  destruct (J_hist p _ _ _ _ _ _ _ _ JJ) as (A0 & c & mb & Q & pd & H & _ & _ & C).
  unfold a_outst in *.
  destruct C as [(E & E2 & _) | (r & ex & qs & todo & out & l & E & WF & E2 & TR & _ & _ & LO & _)]; rewrite E2 in *; cbn [u_out] in *.
  - cbn. repeat split; lia.
  - split; [|split; auto].
    + destruct (N.eq_dec (cq_type r) T_FLUSH) as [T|T].
      * specialize (P2 _ _ _ _ eq_refl T). lia.
      * pose proof (tl_reqs_le2 c r T) as L. rewrite TR in L. rewrite !app_length in *. lia.
    + intros A r' EA T. rewrite E in EA. apply app_inj_tail in EA. destruct EA; subst. eapply P2; eauto.
Qed.

(** *** C13 *)
Lemma phase_drop : forall s a i, phase p s a -> legal p s (a_outst a) i -> i_mresp_en i = true ->
  (mrv (next p s i) = true /\ mrm (next p s i) = i_mresp i) \/
  (mr_type (i_mresp i) = T_WRITE /\ exists r todo out l, a_cur a = Some (mkCur r todo out l) /\ cq_type r <> T_FLUSH).
Proof.
  intros s a i P LG ME. destruct (lg_resp _ _ _ _ LG ME) as (q & l0 & OE & TY).
  destruct (stall01 p s i) eqn:ST01.
  2:{ left. cbn [next mrv mrm]. unfold reg_en0. rewrite ST01. auto. }
  unfold a_outst in OE. destruct P as [P | r P | r P | r P | r P | r k P | r P | r P | r k P | r k P | r k P].
  - rewrite (id_cur _ _ _ P) in OE. discriminate.
  - rewrite (rq_cur _ _ _ _ P) in OE. discriminate.
  - rewrite (ev_cur _ _ _ _ P) in OE. discriminate.
  - assert (NF : cq_type r <> T_FLUSH).
    { intro E. pose proof (wt_ty _ _ _ _ P) as T. rewrite E in T. discriminate. }
    assert (OS1 : ostall1 p s = false).
    { unfold ostall1, cs1. rewrite (wt_t1 _ _ _ _ P). auto. }
    destruct (wt_cur _ _ _ _ P) as [(_ & _ & _ & out & l & AK & E) | [(T2 & _) | (_ & _ & E)]].
    + rewrite E in OE. cbn in OE. subst out. inversion AK; subst. right. split; [congruence|]. do 4 eexists. split; [exact E | auto].
    + exfalso. unfold stall01 in ST01. rewrite OS1 in ST01. unfold ostall2, cs2 in ST01. rewrite T2 in ST01. discriminate.
    + rewrite E in OE. discriminate.
  - destruct (rf_cur _ _ _ _ P) as (l & E & _). rewrite E in OE. discriminate.
  - rewrite (iv_cur _ _ _ _ _ P) in OE. discriminate.
  - rewrite (il_cur _ _ _ _ P) in OE. discriminate.
  - rewrite (fs_cur _ _ _ _ P) in OE. discriminate.
  - destruct (fr_cur _ _ _ _ _ P) as (l & E). rewrite E in OE. discriminate.
  - destruct (fw_cur _ _ _ _ _ P) as [(o & e & l & _ & _ & _ & _ & E & _) | [(q' & l & T2 & _ & T & E & _) | (l & _ & _ & _ & E & _)]];
      try (rewrite E in OE; discriminate).
    exfalso. unfold stall01, ostall1, cs1, ostall2, cs2 in ST01. rewrite T2 in ST01.
    rewrite (fl_t1 _ _ _ _ _ _ (fw_c _ _ _ _ _ P)) in ST01.
    unfold is_evict1, is_rwi1, is_amo1 in ST01. rewrite (fl_t1 _ _ _ _ _ _ (fw_c _ _ _ _ _ P)) in ST01. discriminate.
  - destruct (fx_cur _ _ _ _ _ P) as (l & E). rewrite E in OE. discriminate.
Qed.

Theorem sys_drop : forall s0 is i m0 m rq rs, sys_run p s0 (is ++ [i]) m0 m rq rs -> i_mresp_en i = true ->
  let s := fst (run p s0 is) in
  (mrv (next p s i) = true /\ mrm (next p s i) = i_mresp i) \/
  (mr_type (i_mresp i) = T_WRITE /\ exists A r, accepted (trace_of p s0 is) = A ++ [r] /\ cq_type r <> T_FLUSH).
Proof.
  intros s0 is i m0 m rq rs R ME s.
  destruct (sys_cycle p W _ _ _ _ _ _ _ R) as (m1 & rq1 & rs1 & a & a' & R1 & ST & LG & AC & ST' & MT1).
  destruct (stok_J p _ _ _ _ _ _ _ _ ST) as [JJ _]. fold s in ST, LG, AC.
  inversion ST as [c0 k CS PI NK A1 A2 A3 A4 EM EQ ES EA | a0 PH NK JA OA EA]; subst.
  - destruct (init_step p W _ _ _ PI LG) as (_ & _ & X & _). congruence.
  - destruct (phase_drop _ _ _ PH LG ME) as [D | (T & r & todo & out & l & CU & NF)]; auto.
    right. split; auto.
    destruct (J_hist p _ _ _ _ _ _ _ _ JJ) as (A0 & c & mb & Q & pd & H & _ & _ & C).
    destruct C as [(E & E2 & _) | (r' & ex & qs & todo' & out' & l' & E & WF & E2 & _)]; rewrite E2 in CU; [discriminate|].
    inversion CU; subst. eauto.
Qed.

Lemma phase_idle : forall s a, phase p s a -> a_cur a = None -> ph_idle p s a.
Proof.
  intros s a P N. destruct P as [P | r P | r P | r P | r P | r k P | r P | r P | r k P | r k P | r k P]; auto; exfalso.
  - rewrite (rq_cur _ _ _ _ P) in N. discriminate.
  - rewrite (ev_cur _ _ _ _ P) in N. discriminate.
  - destruct (wt_cur _ _ _ _ P) as [(_ & _ & _ & out & l & AK & E) | [(_ & _ & out & q & l & AK & NW & E) | (_ & _ & E)]]; congruence.
  - destruct (rf_cur _ _ _ _ P) as (l & E & _). congruence.
  - rewrite (iv_cur _ _ _ _ _ P) in N. discriminate.
  - rewrite (il_cur _ _ _ _ P) in N. discriminate.
  - rewrite (fs_cur _ _ _ _ P) in N. discriminate.
  - destruct (fr_cur _ _ _ _ _ P) as (l & E). congruence.
  - destruct (fw_cur _ _ _ _ _ P) as [(o & e & l & _ & _ & _ & _ & E & _) | [(q' & l & T2 & _ & T & E & _) | (l & _ & _ & _ & E & _)]]; congruence.
  - destruct (fx_cur _ _ _ _ _ P) as (l & E). congruence.
Qed.

(** an idle cache is ready unless stage M2 is stalled *)
Lemma idle_ready : forall s a i, ph_idle p s a -> ostall2 s i = false -> req_rdy p s i = true.
Proof.
  intros s a i P S. destruct (idle_quiet _ (id_t1 _ _ _ P)) as (QT & N1 & N2).
  unfold req_rdy, mshr_full, alloc_en, stall01, mshr_empty.
  rewrite (id_fsm _ _ _ P), (id_msn _ _ _ P), S.
  rewrite quiet_whc by auto. rewrite quiet_alloc by auto.
  assert (O1 : ostall1 p s = false).
  { unfold ostall1, cs1. rewrite (quiet_evict p s QT). destruct (t1 s); try discriminate; auto. }
  rewrite O1. reflexivity.
Qed.

(** *** C17 *)
Theorem sys_init : forall s0 is m0 m rq rs, sys_run p s0 is m0 m rq rs -> N.of_nat (length is) < total_lines p ->
  let tr := trace_of p s0 is in
  accepted tr = [] /\ responses tr = [] /\ memreqs tr = [] /\
  forall i, o_req_rdy (output p (fst (run p s0 is)) i) = false.
Proof.
  intros s0 is m0 m rq rs R L tr. destruct (sys_state p W _ _ _ _ _ _ R) as (a & ST).
  inversion ST as [c0 k CS PI NK A1 A2 A3 A4 EM EQ ES EA | a0 PH NK JA OA EA]; [|lia].
  repeat split; auto. intros i. cbn [output o_req_rdy]. unfold req_rdy. rewrite (in_fsm _ _ _ PI). auto.
Qed.

Theorem sys_init_done : forall s0 is m0 m rq rs, sys_run p s0 is m0 m rq rs -> N.of_nat (length is) = total_lines p ->
  let s := fst (run p s0 is) in
  (forall i, o_req_rdy (output p s i) = true) /\
  (forall w j, w < p_assoc p -> j < nblocks p -> te_val p (tram s w j) = false /\ te_dty p (tram s w j) = 0).
Proof.
  intros s0 is m0 m rq rs R L s.
  destruct (@exists_last _ is) as (is1 & i & ->); [intro X; subst is; pose proof (total_ge2 p W); cbn in L; lia|].
  destruct (sys_cycle p W _ _ _ _ _ _ _ R) as (m1 & rq1 & rs1 & a & a' & R1 & ST & LG & AC & ST' & MT1).
  rewrite app_length in L. cbn [length] in L.
  unfold s. rewrite run_snoc. set (s1 := fst (run p s0 is1)) in *.
  inversion ST as [c0 k CS PI NK A1 A2 A3 A4 EM EQ ES EA | a0 PH NK JA OA EA]; subst; [|lia].
  assert (K : k = 0) by lia. subst k.
  destruct (init_step p W _ _ _ PI LG) as (_ & _ & _ & [(X & _) | (_ & c1 & CS1 & PH)]); [lia|].
  pose proof (phase_idle _ _ PH eq_refl) as ID. destruct PI.
  assert (Q2 : m2_active (t2 s1) = false) by (destruct in_t2 as [-> | ->]; auto).
  assert (Q1 : m2_active (t1 s1) = false) by (destruct in_t1 as [-> | ->]; auto).
  assert (SS : ostall2 s1 i = false) by (rewrite ostall2_eq, Q2; auto).
  assert (T2 : t2 (next p s1 i) = t1 s1) by (rewrite an_t2; auto).
  split.
  - intros j. apply idle_ready with (mkA c1 None []); auto. rewrite ostall2_eq, T2, Q1. auto.
  - intros w j Hw Hj. rewrite (id_t _ _ _ ID). apply CS1; auto.
Qed.

(** *** C18 *)
Lemma hist_uniq : forall m0 A c m Y Q, hist p m0 A c m Y Q -> uniq p c.
Proof. intros m0 A c m Y Q H. apply (hist_flat p W) in H. destruct H as (I & _). exact (ci_uniq _ _ _ I). Qed.

Theorem sys_uniq : forall s0 is m0 m rq rs, sys_run p s0 is m0 m rq rs ->
  total_lines p <= N.of_nat (length is) ->
  length (accepted (trace_of p s0 is)) = length (responses (trace_of p s0 is)) ->
  let s := fst (run p s0 is) in
  forall w w' j, w < p_assoc p -> w' < p_assoc p -> j < nblocks p ->
    te_val p (tram s w j) = true \/ te_dty p (tram s w j) <> 0 ->
    te_val p (tram s w' j) = true \/ te_dty p (tram s w' j) <> 0 ->
    te_tag p (tram s w j) = te_tag p (tram s w' j) -> w = w'.
Proof.
  intros s0 is m0 m rq rs R LN AN s w w' j Hw Hw' Hj P1 P2 TG.
  destruct (sys_state p W _ _ _ _ _ _ R) as (a & ST). fold s in ST.
  inversion ST as [c0 k CS PI NK A1 A2 A3 A4 EM EQ ES EA | a0 PH NK JA OA EA]; subst.
  { pose proof (total_ge2 p W). lia. }
  destruct (J_hist p _ _ _ _ _ _ _ _ JA) as (A0 & c & mb & Q & pd & H & PD & CA & C).
  pose proof (hist_length p _ _ _ _ _ _ H) as L. rewrite app_length in L.
  destruct C as [(E & E2 & _) | (r & ex & qs & todo & out & l & E & _)].
  2:{ rewrite E, app_length in AN. cbn in AN. lia. }
  pose proof (phase_idle _ _ PH E2) as ID.
  pose proof (hist_uniq _ _ _ _ _ _ H) as U. subst c.
  assert (PRE : forall w, te_val p (tram s w j) = true \/ te_dty p (tram s w j) <> 0 -> present p (a_c a) w j = true).
  { intros v X. unfold present, lval. rewrite <- (id_t _ _ _ ID). destruct X as [-> | X]; auto.
    destruct (N.eqb_spec (te_dty p (tram s v j)) 0); [contradiction | apply orb_true_r]. }
  apply (U w w' j); auto. unfold ltag. rewrite <- !(id_t _ _ _ ID). auto.
Qed.

(** *** Every memory request belongs to a request *)
Lemma hist_sent : forall m0 A c m Y Q, hist p m0 A c m Y Q -> forall r e, In (r, e) Q ->
  exists A1 A2 c1 m1 Y1 Q1, A = A1 ++ r :: A2 /\ hist p m0 A1 c1 m1 Y1 Q1 /\ In e (tl_reqs p c1 r) /\ wf_req p r.
Proof.
  induction 1 as [c CS | A c m Y Q r H IH WF]; intros r0 e IN; [destruct IN|].
  apply in_app_or in IN. destruct IN as [IN | IN].
  - destruct (IH r0 e IN) as (A1 & A2 & c1 & m1 & Y1 & Q1 & -> & X). exists A1, (A2 ++ [r]). do 4 eexists.
    split; [rewrite <- app_assoc; auto | eauto].
  - apply in_map_iff in IN. destruct IN as (e' & E & IN). inversion E; subst.
    exists A, []. do 4 eexists. split; [auto|]. eauto.
Qed.

Theorem J_sent : forall m0 a m rq rs A E S q, J p m0 a m rq rs A E S -> In q S ->
  exists A1 r A2 c1 m1 Y1 Q1 e, A = A1 ++ r :: A2 /\ hist p m0 A1 c1 m1 Y1 Q1 /\ In e (tl_reqs p c1 r) /\ wf_req p r /\
    mreq_match r e q.
Proof.
  intros m0 a m rq rs A E S q JJ IN.
  destruct (J_hist p _ _ _ _ _ _ _ _ JJ) as (A0 & c & mb & Q & pd & H & PD & CA & C).
  assert (F2 : forall Q S, Forall2 qmatch Q S -> In q S -> exists r e, In (r, e) Q /\ mreq_match r e q).
  { induction 1 as [|[r e] q' Q' S' M F IH]; intros X; [destruct X|]. destruct X as [-> | X].
    - exists r, e. split; [left; auto | exact M].
    - destruct (IH X) as (r1 & e1 & I1 & M1). exists r1, e1. split; [right; auto | auto]. }
  destruct C as [(EA & _ & _ & _ & _ & F) | (r & ex & qs & todo & out & l & EA & WF & _ & TR & _ & _ & _ & _ & F)].
  - destruct (F2 _ _ F IN) as (r & e & I1 & M). destruct (hist_sent _ _ _ _ _ _ H _ _ I1) as (A1 & A2 & c1 & m1 & Y1 & Q1 & X1 & X2 & X3 & X4).
    subst A. exists A1, r, A2, c1, m1, Y1, Q1, e. auto.
  - destruct (F2 _ _ F IN) as (r' & e & I1 & M). apply in_app_or in I1. destruct I1 as [I1 | I1].
    + destruct (hist_sent _ _ _ _ _ _ H _ _ I1) as (A1 & A2 & c1 & m1 & Y1 & Q1 & X1 & X2 & X3 & X4).
      subst A0. exists A1, r', (A2 ++ [r]), c1, m1, Y1, Q1, e. split; [rewrite EA, <- app_assoc; auto | auto].
    + apply in_map_iff in I1. destruct I1 as (e' & EE & I1). injection EE as E1 E2; subst r' e'.
      exists A0, r, [], c, mb, (E ++ pd), Q, e. split; auto. split; auto. split; auto.
      rewrite TR. apply in_app_or in I1. destruct I1; apply in_or_app; auto. right. apply in_or_app; auto.
Qed.

(** *** C19: shape of memory requests *)
Lemma line_addr_al : forall t i, mk_addr p t i 0 mod (p_clw p / 8) = 0.
Proof.
  intros t i. rewrite (clw_bytes p W). rewrite <- a_off_mod. apply base_off0.
Qed.

Definition mreq_shape (A : list creq) (q : mreq) : Prop :=
  ((mq_type q = T_READ \/ mq_type q = T_WRITE /\ mq_mask q <> 0 /\ mq_mask q < 2 ^ (p_clw p / 32)) /\
     mq_addr q mod (p_clw p / 8) = 0 /\ mq_addr q < 2 ^ p_abw p /\ mq_len q = 0) \/
  (exists r, In r A /\ is_amo (mq_type q) = true /\ mq_type q = cq_type r /\ mq_addr q = cq_addr r /\ mq_opq q = cq_opq r /\
     mq_len q = 4 /\ mq_data q = trunc (p_dbw p) (cq_data r)).

Lemma flush_shape : forall c opq k e, In e (flush_reqs p c opq k) ->
  exists j, (j < k)%nat /\ e = flush_req p c opq (N.of_nat j) /\
    line_dirty p true (ct c (lway p (N.of_nat j)) (lidx p (N.of_nat j))) = true.
Proof.
  induction k as [|k IH]; intros e IN; [destruct IN|]. cbn [flush_reqs] in IN.
  apply in_app_or in IN. destruct IN as [IN | IN].
  - destruct (line_dirty p true (ct c (lway p (N.of_nat k)) (lidx p (N.of_nat k)))) eqn:D; [|destruct IN].
    destruct IN as [IN | []]. exists k. split; [lia | auto].
  - destruct (IH e IN) as (j & L & X). exists j. split; [lia | auto].
Qed.

Lemma is_amo_wf : forall r, wf_req p r -> is_amo (cq_type r) = true -> wf_amo p r.
Proof.
  intros r (_ & _ & [(T & _) | [(T & _) | [A | [T | T]]]]) H; auto; rewrite T in H; discriminate.
Qed.

Lemma dirty_nz : forall e, line_dirty p true e = true -> te_dty p e <> 0.
Proof. intros e H. unfold line_dirty in H. cbn in H. destruct (N.eqb_spec (te_dty p e) 0); [discriminate | auto]. Qed.

Lemma tl_shape : forall c r e q A, wf_req p r -> In e (tl_reqs p c r) -> mreq_match r e q -> In r A -> mreq_shape A q.
Proof.
  intros c r e q A WF IN (M1 & M2 & M3 & M4 & M5 & M6) IA. unfold mreq_shape. rewrite <- M1, <- M2, <- M3, <- M4, <- M5.
  assert (LA : forall a, line_addr p a mod (p_clw p / 8) = 0 /\ line_addr p a < 2 ^ p_abw p).
  { intros a. unfold line_addr. split; [apply line_addr_al | apply mk_addr_lt; auto; apply a_tag_lt; auto]. }
  unfold tl_reqs in IN. destruct (N.eqb_spec (cq_type r) T_INV) as [TI|TI]; [destruct IN|].
  destruct (N.eqb_spec (cq_type r) T_FLUSH) as [TF|TF].
  { apply flush_shape in IN. destruct IN as (j & _ & -> & D). left. unfold flush_req. cbn [mq_type mq_addr mq_len mq_mask].
    destruct (LA (mk_addr p (te_tag p (ct c (lway p (N.of_nat j)) (lidx p (N.of_nat j)))) (lidx p (N.of_nat j)) 0)).
    split; auto. right. split; auto. split; [apply dirty_nz; auto|]. rewrite (clw_words p). apply te_dty_lt. }
  specialize (M6 TF).
  assert (EV : forall w, In e (if tl_evict p c r then [evict_req p c r w] else []) -> te_dty p (tl_ent p c r w) <> 0 ->
     mq_type e = T_WRITE /\ (mq_mask e <> 0 /\ mq_mask e < 2 ^ (p_clw p / 32)) /\
     mq_addr e mod (p_clw p / 8) = 0 /\ mq_addr e < 2 ^ p_abw p /\ mq_len e = 0).
  { intros w IE ND. destruct (tl_evict p c r); [destruct IE as [IE | []] | destruct IE]. subst e. unfold evict_req. cbn [mq_type mq_addr mq_len mq_mask].
    match goal with |- context [line_addr p ?x] => destruct (LA x) end.
    repeat split; auto. rewrite (clw_words p). apply te_dty_lt. }
  destruct (tl_isamo r) eqn:AM.
  - apply in_app_or in IN. destruct IN as [IN | IN].
    + assert (ND : te_dty p (tl_ent p c r (tl_way p c r)) <> 0).
      { unfold tl_way. rewrite AM. apply dirty_nz. unfold tl_evict in IN. rewrite AM in IN.
        destruct (line_dirty p true (tl_ent p c r (tl_hw p c r))); [auto | destruct IN]. }
      destruct (EV _ IN ND) as (X1 & X2 & X3). left. split; auto.
    + destruct IN as [IN | []]. subst e. right. exists r.
      pose proof (is_amo_wf r WF AM) as (T & AL & DL). unfold tl_isamo in AM.
      unfold amo_req in *. cbn [mq_type mq_addr mq_len mq_opq mq_data] in *.
      split; auto. split; auto. split; auto. split.
      { cbn [off_len fst]. apply mk_addr_parts; auto. apply WF. }
      split; auto. split.
      { unfold off_len. cbn [snd]. destruct (N.eqb_spec (p_dbw p) 32); auto. destruct DL; [contradiction | auto]. }
      { unfold tl_data, tl_isamo. rewrite AM. unfold replicator, rep_sel. auto. }
  - destruct (tl_hit p c r) eqn:HI; [destruct IN|]. apply in_app_or in IN. left. destruct IN as [IN | IN].
    + assert (ND : te_dty p (tl_ent p c r (tl_way p c r)) <> 0).
      { unfold tl_evict in IN. rewrite AM, HI in IN. unfold tl_way. rewrite AM, HI.
        destruct (tl_inval p c r); [destruct IN|]. cbn [negb andb] in IN. apply dirty_nz.
        destruct (line_dirty p true (tl_ent p c r (tl_rep p c r))); [auto | destruct IN]. }
      destruct (EV _ IN ND) as (X1 & X2 & X3). split; auto.
    + destruct IN as [IN | []]. subst e. unfold refill_req. cbn [mq_type mq_addr mq_len]. destruct (LA (cq_addr r)). auto.
Qed.

Theorem sys_shape : forall s0 is m0 m rq rs, sys_run p s0 is m0 m rq rs ->
  Forall (mreq_shape (accepted (trace_of p s0 is))) (memreqs (trace_of p s0 is)).
Proof.
  intros s0 is m0 m rq rs R. destruct (sys_state p W _ _ _ _ _ _ R) as (a & ST).
  destruct (stok_J p _ _ _ _ _ _ _ _ ST) as [JJ _]. apply Forall_forall. intros q IN.
  destruct (J_sent _ _ _ _ _ _ _ _ _ JJ IN) as (A1 & r & A2 & c1 & m1 & Y1 & Q1 & e & EA & H & IE & WF & M).
  eapply tl_shape; eauto. rewrite EA. apply in_or_app. right. left. auto.
Qed.

(** *** Requests are only sent for the last accepted request, all earlier ones answered *)
Theorem sys_send : forall s0 is i m0 m rq rs q, sys_run p s0 (is ++ [i]) m0 m rq rs ->
  o_mreq (output p (fst (run p s0 is)) i) = Some q ->
  exists A r c mb Q e, accepted (trace_of p s0 is) = A ++ [r] /\ wf_req p r /\
    hist p m0 A c mb (responses (trace_of p s0 is)) Q /\
    In e (tl_reqs p c r) /\ mreq_match r e q.
Proof.
  intros s0 is i m0 m rq rs q R OQ.
  destruct (sys_cycle p W _ _ _ _ _ _ _ R) as (m1 & rq1 & rs1 & a & a' & R1 & ST & LG & AC & ST' & MT1).
  destruct (stok_J p _ _ _ _ _ _ _ _ ST) as [JJ _].
  destruct AC as (a1 & a2 & a3 & RC & SD & _). unfold o_send in SD. rewrite OQ in SD.
  destruct (o_resp (output p (fst (run p s0 is)) i)); [contradiction|]. inversion SD; subst.
  assert (CA : exists out' l', a = mkA c (Some (mkCur r (e :: todo) out' l')) []).
  { unfold o_recv in RC. destruct (i_mresp_en i); [inversion RC; subst|]; eauto. }
  destruct CA as (out' & l' & ->).
  destruct (J_hist p _ _ _ _ _ _ _ _ JJ) as (A0 & c0 & mb & Q & pd & H' & PD & CA & C). cbn [a_pend a_c a_cur] in *. subst pd c0.
  rewrite app_nil_r in H'.
  destruct C as [(EA & X & _) | (r' & ex & qs & todo' & out'' & l'' & EA & WF & X & TR & _)]; [discriminate|].
  inversion X; subst. exists A0, r', c, mb, Q, e. split; auto. split; auto. split; auto. split; auto.
  rewrite TR. apply in_or_app; right. apply in_or_app; right. left; auto.
Qed.

(** *** C07 *)
Lemma hist_flush : forall m0 A c m Y Q A' r, hist p m0 A c m Y Q -> A = A' ++ [r] -> cq_type r = T_FLUSH ->
  eqm p m (flat_mem p m0 A).
Proof.
  intros m0 A c m Y Q A' r H EA T. pose proof (hist_flat p W _ _ _ _ _ _ H) as (I & V & _).
  inversion H as [c0 CS | A0 c0 mm Y0 Q0 r0 H0 WF]; subst.
  - destruct A'; discriminate.
  - apply app_inj_tail in H1. destruct H1; subst A0 r0.
    destruct (hist_flat p W _ _ _ _ _ _ H0) as (I0 & _ & _).
    destruct (step_flush p W c0 mm r I0 T) as (_ & _ & SF).
    intros x X. rewrite <- V by auto.
    assert (FE : fst (tl_fin p c0 r (last_data (snd (mem_run p mm (tl_reqs p c0 r))))) =
                 mkC (tmap p (ent_clean p) (ct c0)) (cd c0) (cr c0)).
    { unfold tl_fin. rewrite T. auto. }
    rewrite FE, SF. rewrite trunc_trunc. auto.
Qed.

Theorem sys_flush : forall s0 is i m0 m rq rs y A r, sys_run p s0 (is ++ [i]) m0 m rq rs ->
  let tr := trace_of p s0 (is ++ [i]) in
  o_resp (output p (fst (run p s0 is)) i) = Some y ->
  firstn (length (responses tr)) (accepted tr) = A ++ [r] -> cq_type r = T_FLUSH ->
  rq = [] /\ eqm p m (flat_mem p m0 (A ++ [r])).
Proof.
  intros s0 is i m0 m rq rs y A r R tr OY EA T.
  destruct (sys_cycle p W _ _ _ _ _ _ _ R) as (m1 & rq1 & rs1 & a & a' & R1 & ST & LG & AC & ST' & MT1).
  destruct (stok_J p _ _ _ _ _ _ _ _ ST) as [JJ _]. set (s := fst (run p s0 is)) in *. set (t1 := trace_of p s0 is) in *.
  assert (OQ : o_mreq (output p s i) = None) by (destruct (out_protocol p s i) as (_ & _ & [X | X]); congruence).
  assert (PD : exists pd, a_pend a = y :: pd).
  { destruct AC as (a1 & a2 & a3 & RC & SD & _). unfold o_send in SD. rewrite OQ, OY in SD. inversion SD; subst.
    unfold o_recv in RC. destruct (i_mresp_en i); [inversion RC; subst; cbn; eauto | inversion RC; subst; cbn; eauto]. }
  destruct PD as (pd & PD).
  assert (RN : responses tr = responses t1 ++ [y]).
  { unfold tr. rewrite trace_snoc, responses_app. fold s. fold t1.
    assert (X : responses [(i, output p s i)] = opt_list (o_resp (output p s i)) ++ []) by reflexivity. rewrite X, OY. auto. }
  assert (KEY : exists c1 mb Q, hist p m0 (firstn (length (responses t1) + 1) (accepted t1)) c1 mb (responses t1 ++ [y]) Q /\
            m1 = mb /\ rq1 = [] /\ (length (responses t1) + 1 <= length (accepted t1))%nat).
  { inversion JJ; subst; cbn [a_pend] in PD; subst.
    - match goal with Z : pendok _ _ _ _ _ _ _ |- _ => destruct (Z (length (responses t1) + 1)%nat) as (c1 & HH); [cbn; lia|] end.
      exists c1, m1, Q. split.
      + rewrite firstn_app in HH. replace (length (responses t1) + 1 - length (responses t1))%nat with 1%nat in HH by lia.
        rewrite (firstn_all2 (responses t1)) in HH by lia. cbn [firstn] in HH. auto.
      + repeat split; auto. match goal with Z : hist _ _ _ _ _ (_ ++ y :: pd) _ |- _ => pose proof (hist_length p _ _ _ _ _ _ Z) as L end.
        rewrite app_length in L. cbn in L. lia.
    - match goal with Z : pendok _ _ _ _ _ _ _ |- _ => destruct (Z (length (responses t1) + 1)%nat) as (c1 & HH); [cbn; lia|] end.
      match goal with Z : hist _ _ _ _ _ (_ ++ y :: pd) _ |- _ => pose proof (hist_length p _ _ _ _ _ _ Z) as L end.
      rewrite app_length in L. cbn in L.
      match goal with Z : _ \/ ex ++ qs = [] |- _ => destruct Z as [Z1 | Z1]; [discriminate|] end.
      apply app_eq_nil in Z1. destruct Z1; subst.
      match goal with Z : Forall2 _ [] rq1 |- _ => inversion Z; subst end.
      exists c1, mb, Q. split.
      + rewrite firstn_app in HH. replace (length (responses t1) + 1 - length (responses t1))%nat with 1%nat in HH by lia.
        rewrite (firstn_all2 (responses t1)) in HH by lia. cbn [firstn] in HH.
        rewrite firstn_app. replace (length (responses t1) + 1 - length A0)%nat with 0%nat by lia. cbn [firstn]. rewrite app_nil_r. auto.
      + repeat split; auto. rewrite app_length. cbn. lia. }
  destruct KEY as (c1 & mb & Q & HH & -> & -> & LL).
  assert (QT : m = mb /\ rq = []).
  { inversion MT1; subst; match goal with X : mem_trace p _ _ _ [] _ _ _ |- _ => rewrite OQ in X; cbn in X; inversion X; subst; auto end. }
  destruct QT as (-> & ->). split; auto.
  assert (FN : firstn (length (responses t1) + 1) (accepted t1) = A ++ [r]).
  { rewrite <- EA, RN, app_length. cbn [length]. unfold tr. rewrite trace_snoc, accepted_app, firstn_app.
    fold t1. replace (length (responses t1) + 1 - length (accepted t1))%nat with 0%nat by lia. cbn [firstn]. rewrite app_nil_r. auto. }
  rewrite FN in HH. eapply hist_flush; eauto.
Qed.
End F.
