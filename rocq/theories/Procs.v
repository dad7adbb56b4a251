(** Model of test/ProcModel.py (the processor handshake wrapper used by every
    test bench) around the cache, and the lemmas behind C35. *)
From Coq Require Import Arith NArith List Bool Lia.
From Verif Require Import Bits Params Msg Units Rtl Mem Spec System Tl ParamsProofs RtlLemmas RefineInv RefineStall RefineProofs
  RefineAdv1 ViewDefs ViewProofs SysProofs SysFacts Facts1 Facts2.
Import ListNotations.
Open Scope N_scope.

(** ProcModel.py 33, 46-52: [trans_in_flight], a 2-bit register reset to 0 that
    counts up when a request goes in and no response comes out, down in the
    opposite case, and keeps its value otherwise.  [N.add 3] is the 2-bit [- 1]. *)
Definition is_some {A} (o : option A) : bool := match o with Some _ => true | None => false end.
Definition flight_step (c : N) (io : inp * outp) : N :=
  let req := i_req_en (fst io) in let resp := is_some (o_resp (snd io)) in
  if req && negb resp then trunc 2 (c + 1)
  else if negb req && resp then trunc 2 (c + 3)
  else c.
Definition flight (tr : trace) : N := fold_left flight_step tr 0.

(** the same inputs with another value on the response ready wire *)
Definition with_rdy (i : inp) (b : bool) : inp :=
  mkInp (i_req_en i) (i_req i) b (i_mreq_rdy i) (i_mresp_en i) (i_mresp i).
(** ProcModel.py 36-43: what [signal_model] drives on cache.resp.rdy when the
    processor side shows [b], the cache's request ready is [rdy] and the counter is [c] *)
Definition model_rdy (c : N) (b rdy : bool) : bool := if c =? 0 then b && rdy else b.
(** The wires are consistent when the value on cache.resp.rdy is the one driven
    by the wrapper: cache.req.rdy may depend on it combinationally. *)
Definition loop_ok (p : params) (s : st) (c : N) (b : bool) (i : inp) : Prop :=
  i_resp_rdy i = model_rdy c b (o_req_rdy (output p s i)).
Inductive wrapped (p : params) : st -> N -> list inp -> list bool -> Prop :=
| wr_nil : forall s c, wrapped p s c [] []
| wr_cons : forall s c i b is bs, loop_ok p s c b i ->
    wrapped p (next p s i) (flight_step c (i, output p s i)) is bs -> wrapped p s c (i :: is) (b :: bs).

(** *** Proofs *)
Section F.
Variable p : params.
Hypothesis W : wf_params p.

Definition silent_t (t : trans) : bool := match t with TR_REFILL | TR_FLUSH_READ => true | _ => false end.
Definition silent_ok (s : st) : Prop :=
  silent_t (t2 s) = true -> fsm s = F_READY -> msn s = 0 -> m2_active (t1 s) = true.

Lemma silent_step : forall s a i, phase p s a -> silent_ok s -> silent_ok (next p s i).
Proof.
  intros s a i P K. destruct (ostall2 s i) eqn:OS.
  - intros S2 F M.
    assert (ST : stall01 p s i = true) by (unfold stall01; rewrite OS; apply orb_true_r).
    cbn [next fsm msn t1 t2] in *. unfold reg_en0, alloc_en, dealloc_en, creg_en1, reg_en1, creg_en2, reg_en2 in *.
    rewrite ST, OS in *. cbn [negb andb orb] in *. rewrite !andb_false_r in M.
    unfold is_cinit0, is_cinit1 in *.
    assert (C0 : trans_eqb (trans0 p s i) TR_CACHE_INIT = false).
    { unfold trans0. rewrite F. destruct (write_hit_clean p s); auto.
      destruct (mr_val s && negb (mshr_empty s)).
      { destruct ((mshr_type s =? T_WRITE) || (mshr_type s =? T_READ)); auto. destruct (is_amo (mshr_type s)); auto. }
      destruct (mshr_empty s && i_req_en i); auto.
      destruct (req_type0 s i =? T_INIT); auto. destruct (req_type0 s i =? T_READ); auto. destruct (req_type0 s i =? T_WRITE); auto.
      destruct (is_amo (req_type0 s i)); auto. destruct (req_type0 s i =? T_INV); auto. destruct (req_type0 s i =? T_FLUSH); auto. }
    rewrite C0. destruct (t1 s) eqn:T1; cbn [trans_eqb] in *; try discriminate; rewrite <- T1; apply K; auto.
  - intros S2 F M. rewrite an_t2 in S2 by auto.
    assert (NE : is_evict1 p s = false) by (unfold is_evict1, is_rwi1, is_amo1; destruct (t1 s); try discriminate; auto).
    rewrite an_t1 by auto. rewrite an_fsm in F by auto.
    destruct P as [P | r P | r P | r P | r P | r k P | r P | r P | r k P | r k P | r k P].
    + pose proof (id_t1 _ _ _ P) as X. destruct (t1 s); discriminate.
    + pose proof (rq_t1 _ _ _ _ P) as X. rewrite X in S2. unfold req_trans in S2.
      destruct (cq_type r =? T_READ), (cq_type r =? T_WRITE), (is_amo (cq_type r)), (cq_type r =? T_INV); discriminate.
    + pose proof (ev_t1 _ _ _ _ P) as X. rewrite X in S2. unfold req_trans in S2.
      destruct (cq_type r =? T_READ), (cq_type r =? T_WRITE), (is_amo (cq_type r)), (cq_type r =? T_INV); discriminate.
    + rewrite (wt_t1 _ _ _ _ P) in S2. discriminate.
    + unfold trans0. rewrite (rf_fsm _ _ _ _ P).
      assert (WH : write_hit_clean p s = false) by (unfold write_hit_clean; rewrite (rf_t1 _ _ _ _ P); cbn; rewrite !andb_false_r; auto).
      rewrite WH. unfold mshr_empty. rewrite (rf_msn _ _ _ _ P). change (negb (1 =? 0)) with true. cbn [andb].
      assert (MT : mshr_type s = cq_type r) by (unfold mshr_type; rewrite (rf_msr _ _ _ _ P); reflexivity).
      rewrite MT. pose proof (rf_ty _ _ _ _ P) as T. unfold RefineInv.is_rw in T.
      destruct (cq_type r =? T_WRITE); auto. destruct (cq_type r =? T_READ); auto. discriminate.
    + destruct (iv_t1 _ _ _ _ _ P) as [(X & _) | (X & _)]; rewrite X in S2; discriminate.
    + rewrite (il_t1 _ _ _ _ P) in S2. discriminate.
    + rewrite (fs_t1 _ _ _ _ P) in S2. discriminate.
    + unfold fsm_next in F. unfold trans0. 
      assert (WH : write_hit_clean p s = false) by (unfold write_hit_clean; rewrite (fl_t1 _ _ _ _ _ _ (fr_c _ _ _ _ _ P)); cbn; rewrite !andb_false_r; auto).
      rewrite WH. rewrite (fr_fsm _ _ _ _ _ P) in *. unfold mshr_empty in *. rewrite (fl_msn _ _ _ _ _ _ (fr_c _ _ _ _ _ P)) in *.
      change (negb (1 =? 0)) with true in *. cbn [andb] in *.
      assert (MT : mshr_type s = T_FLUSH).
      { unfold mshr_type. rewrite (fl_msr _ _ _ _ _ _ (fr_c _ _ _ _ _ P)). cbn. apply (fl_ty _ _ _ _ _ _ (fr_c _ _ _ _ _ P)). }
      rewrite MT in *. change (T_FLUSH =? T_WRITE) with false. change (T_FLUSH =? T_READ) with false. change (T_FLUSH =? T_INV) with false.
      change (T_FLUSH =? T_FLUSH) with true in *.
      destruct (k =? 0).
      * destruct (prev_flush_done p s); auto; discriminate.
      * destruct (has_flush_sent1 p s); try discriminate. destruct (ctr s =? 0); discriminate.
    + rewrite (fl_t1 _ _ _ _ _ _ (fw_c _ _ _ _ _ P)) in S2. discriminate.
    + rewrite (fl_t1 _ _ _ _ _ _ (fx_c _ _ _ _ _ P)) in S2. discriminate.
Qed.

Lemma sys_silent : forall is s0 m0 m rq rs, sys_run p s0 is m0 m rq rs -> silent_ok (fst (run p s0 is)).
Proof.
  induction is as [|i is IH] using rev_ind; intros s0 m0 m rq rs R.
  - cbn. intros S. destruct R as ((_ & _ & _ & _ & _ & _ & _ & _ & _ & _ & _ & _ & _ & _ & T2 & _) & _). rewrite T2 in S. discriminate.
  - destruct (sys_cycle p W _ _ _ _ _ _ _ R) as (m1 & rq1 & rs1 & a & a' & R1 & ST & LG & AC & ST' & MT1).
    rewrite run_snoc.
    inversion ST as [c0 k CS PI NK A1 A2 A3 A4 EM EQ ES EA | a0 PH NK JA OA EA]; subst.
    + intros S F M. destruct PI.
      assert (Q2 : m2_active (t2 (fst (run p s0 is))) = false) by (destruct in_t2 as [-> | ->]; auto).
      rewrite an_t2 in S by (rewrite ostall2_eq, Q2; auto). destruct in_t1 as [X | X]; rewrite X in S; discriminate.
    + apply silent_step with a; auto. eapply IH; eauto.
Qed.

Lemma idle_inactive : forall s0 is m0 m rq rs, sys_run p s0 is m0 m rq rs ->
  length (accepted (trace_of p s0 is)) = length (responses (trace_of p s0 is)) ->
  m2_active (t2 (fst (run p s0 is))) = false.
Proof.
  intros s0 is m0 m rq rs R LE. pose proof (sys_silent _ _ _ _ _ _ R) as K.
  destruct (sys_state p W _ _ _ _ _ _ R) as (a & ST).
  destruct (stok_J p _ _ _ _ _ _ _ _ ST) as [JJ _].
  inversion ST as [c0 k CS PI NK A1 A2 A3 A4 EM EQ ES EA | a0 PH NK JA OA EA]; subst.
  - destruct PI. destruct in_t2 as [-> | ->]; auto.
  - destruct (J_hist p _ _ _ _ _ _ _ _ JJ) as (A0 & c & mb & Q & pd & H & PD & CA & C).
    pose proof (hist_length p _ _ _ _ _ _ H) as L. rewrite app_length in L.
    destruct C as [(E & E2 & _) | (r & ex & qs & todo & out & l & E & _)].
    2:{ rewrite E, app_length in LE. cbn in LE. lia. }
    pose proof (phase_idle p _ _ PH E2) as ID.
    assert (PN : a_pend a = []).
    { rewrite <- E in L. rewrite PD in L. destruct (a_pend a); auto. cbn [length] in L. lia. }
    pose proof (id_pend _ _ _ ID) as IP. rewrite PN in IP. symmetry in IP. apply app_eq_nil in IP. destruct IP as [I2 I1].
    set (s := fst (run p s0 is)) in *. destruct (m2_active (t2 s)) eqn:M2; auto. exfalso.
    assert (R2 : resp2 p s = None) by (destruct (resp2 p s); auto; discriminate).
    assert (R1 : resp1 p s = None) by (destruct (resp1 p s); auto; discriminate).
    rewrite resp2_eq, M2 in R2. 
    assert (S2 : silent_t (t2 s) = true).
    { pose proof (id_mem2 _ _ _ ID) as MM. unfold mem2, output in MM. cbn [o_mreq] in MM. unfold memreq_en, cs2 in MM.
      unfold m2_resp in R2. destruct (t2 s); try discriminate; auto; cbn in MM, R2; destruct (ev2 s), (hit2 s); cbn in *; discriminate. }
    specialize (K S2 (id_fsm _ _ _ ID) (id_msn _ _ _ ID)).
    unfold resp1 in R1. rewrite K in R1. pose proof (id_t1 _ _ _ ID) as IT.
    assert (NE : is_evict1 p s = false).
    { unfold is_evict1, is_rwi1, is_amo1. destruct (t1 s); try discriminate; auto. }
    rewrite NE in R1. destruct (t1 s); try discriminate.
Qed.

Lemma inactive_rdy : forall s i b, m2_active (t2 s) = false ->
  output p s (with_rdy i b) = output p s i /\ next p s (with_rdy i b) = next p s i.
Proof.
  intros s i b H. destruct i as [a1 a2 a3 a4 a5 a6]. unfold with_rdy. cbn [i_req_en i_req i_mreq_rdy i_mresp_en i_mresp].
  destruct s. cbn [Rtl.t2] in H. destruct t2; try discriminate; split; reflexivity.
Qed.

Theorem sys_quiet_rdy : forall s0 is m0 m rq rs i b, sys_run p s0 is m0 m rq rs ->
  length (accepted (trace_of p s0 is)) = length (responses (trace_of p s0 is)) ->
  let s := fst (run p s0 is) in
  output p s (with_rdy i b) = output p s i /\ next p s (with_rdy i b) = next p s i.
Proof. intros. apply inactive_rdy. eapply idle_inactive; eauto. Qed.

Lemma flight_app : forall tr tr', flight (tr ++ tr') = fold_left flight_step tr' (flight tr).
Proof. intros. unfold flight. apply fold_left_app. Qed.

Theorem sys_flight : forall is s0 m0 m rq rs, sys_run p s0 is m0 m rq rs ->
  let tr := trace_of p s0 is in
  N.of_nat (length (accepted tr)) = N.of_nat (length (responses tr)) + flight tr /\ flight tr <= 2.
Proof.
  induction is as [|i is IH] using rev_ind; intros s0 m0 m rq rs R tr.
  - cbn. unfold flight. cbn. lia.
  - destruct (sys_app p _ _ _ _ _ _ _ R) as (m1 & rq1 & rs1 & R1 & _).
    destruct (IH _ _ _ _ _ R1) as [E L]. pose proof (sys_inflight p W _ _ _ _ _ _ R) as [F1 F2].
    fold tr in F1, F2. cbv zeta in E, L. unfold tr in *. rewrite trace_snoc in *. rewrite flight_app in *. rewrite accepted_app, responses_app, !app_length in *.
    set (A := length (accepted (trace_of p s0 is))) in *. set (Y := length (responses (trace_of p s0 is))) in *.
    set (c := flight (trace_of p s0 is)) in *. clearbody A Y c.
    cbn [fold_left]. unfold accepted, responses, flight_step in *. cbn [flat_map fst snd] in *. rewrite !app_nil_r in *.
    set (o := o_resp (output p (fst (run p s0 is)) i)) in *. clearbody o.
    assert (T1 : c <= 2 -> c + 1 < 4 -> trunc 2 (c + 1) = c + 1).
    { intros. rewrite trunc_mod. apply N.mod_small. change (2 ^ 2) with 4. auto. }
    assert (T3 : 1 <= c -> trunc 2 (c + 3) = c - 1).
    { intros. rewrite trunc_mod. change (2 ^ 2) with 4. replace (c + 3) with (c - 1 + 1 * 4) by lia. rewrite N.mod_add by lia. apply N.mod_small. lia. }
    destruct (i_req_en i), o; cbn [opt_list is_some length andb negb] in *; try lia.
Qed.

Theorem sys_flight_rdy : forall s0 is m0 m rq rs i b, sys_run p s0 is m0 m rq rs ->
  let s := fst (run p s0 is) in let c := flight (trace_of p s0 is) in
  (exists x, loop_ok p s c b (with_rdy i x) /\ (forall y, loop_ok p s c b (with_rdy i y) -> y = x)) /\
  (forall x, loop_ok p s c b (with_rdy i x) ->
     output p s (with_rdy i x) = output p s (with_rdy i b) /\ next p s (with_rdy i x) = next p s (with_rdy i b)).
Proof.
  intros s0 is m0 m rq rs i b R s c. destruct (sys_flight _ _ _ _ _ _ R) as [E L]. fold c in E, L.
  unfold loop_ok, model_rdy. destruct (N.eqb_spec c 0) as [Z|Z].
  - assert (LE : length (accepted (trace_of p s0 is)) = length (responses (trace_of p s0 is))) by lia.
    pose proof (fun x => sys_quiet_rdy _ _ _ _ _ _ i x R LE) as Q. cbv zeta in Q. fold s in Q.
    split.
    + exists (b && o_req_rdy (output p s i)). split.
      * destruct (Q (b && o_req_rdy (output p s i))) as [X _]. rewrite X. auto.
      * intros y H. destruct (Q y) as [X _]. rewrite X in H. auto.
    + intros x _. destruct (Q x) as [-> ->], (Q b) as [-> ->]. auto.
  - split.
    + exists b. split; auto.
    + intros x H. cbn [with_rdy i_resp_rdy] in H. subst x. auto.
Qed.

(** The wrapper is transparent. *)
Fixpoint direct (is : list inp) (bs : list bool) : list inp :=
  match is, bs with i :: is, b :: bs => with_rdy i b :: direct is bs | _, _ => [] end.
Lemma wrapped_gen : forall is2 bs is1 s0 m0 m rq rs, sys_run p s0 (is1 ++ is2) m0 m rq rs ->
  wrapped p (fst (run p s0 is1)) (flight (trace_of p s0 is1)) is2 bs ->
  run p (fst (run p s0 is1)) is2 = run p (fst (run p s0 is1)) (direct is2 bs).
Proof.
  induction is2 as [|i is2 IH]; intros bs is1 s0 m0 m rq rs R WR; inversion WR as [|s c i' b is bs' LO WR']; subst; auto.
  destruct (sys_app p _ _ _ _ _ _ _ R) as (m1 & rq1 & rs1 & R1 & _).
  set (s := fst (run p s0 is1)) in *.
  assert (EI : with_rdy i (i_resp_rdy i) = i) by (destruct i; reflexivity).
  destruct (sys_flight_rdy _ _ _ _ _ _ i b R1) as [_ EQ]. fold s in EQ. specialize (EQ (i_resp_rdy i)). rewrite EI in EQ.
  destruct (EQ LO) as [EO EN]. cbn [direct run step].
  change (i :: is2) with ([i] ++ is2) in R. rewrite app_assoc in R.
  specialize (IH bs' (is1 ++ [i]) _ _ _ _ _ R). rewrite run_snoc, trace_snoc, flight_app in IH. fold s in IH. cbn [fold_left] in IH.
  specialize (IH WR'). unfold step. rewrite <- EO, <- EN, IH. auto.
Qed.
Theorem wrapped_direct : forall is bs s0 m0 m rq rs, sys_run p s0 is m0 m rq rs -> wrapped p s0 0 is bs ->
  run p s0 is = run p s0 (direct is bs).
Proof. intros is bs s0 m0 m rq rs R WR. apply (wrapped_gen is bs [] s0 m0 m rq rs); auto. Qed.

(** Every run has a wrapped counterpart. *)
Definition same_io (x y : inp * outp) : Prop :=
  i_req_en (fst x) = i_req_en (fst y) /\ i_req (fst x) = i_req (fst y) /\ i_mresp_en (fst x) = i_mresp_en (fst y) /\
  i_mresp (fst x) = i_mresp (fst y) /\ snd x = snd y.
Lemma mem_trace_same : forall tr tr', Forall2 same_io tr tr' -> forall m rq rs m' rq' rs',
  mem_trace p m rq rs tr m' rq' rs' -> mem_trace p m rq rs tr' m' rq' rs'.
Proof.
  intros tr tr' F m rq rs m' rq' rs' M. revert tr' F. induction M; intros tr2 F.
  - inversion F; subst. constructor.
  - constructor. auto.
  - inversion F as [|x [i2 o2] l l2 (E1 & E2 & E3 & E4 & E5) FF]; subst. cbn [fst snd] in *. subst o2.
    apply mt_quiet; [congruence | auto].
  - inversion F as [|x' [i2 o2] l l2 (E1 & E2 & E3 & E4 & E5) FF]; subst. cbn [fst snd] in *. subst o2.
    apply mt_answer; [congruence | congruence | auto].
Qed.
Lemma client_same : forall tr tr', Forall2 same_io tr tr' -> client_ok p tr -> client_ok p tr'.
Proof.
  unfold client_ok. induction 1 as [|x y l l' (E1 & E2 & E3 & E4 & E5) F IH]; intros C; auto. inversion C; subst. constructor; auto.
  intros RE. rewrite <- E1 in RE. rewrite <- E2, <- E5. auto.
Qed.
Lemma flight_same : forall tr tr', Forall2 same_io tr tr' -> forall c, fold_left flight_step tr c = fold_left flight_step tr' c.
Proof.
  induction 1 as [|x y l l' (E1 & E2 & E3 & E4 & E5) F IH]; intros c; auto. cbn [fold_left].
  unfold flight_step at 2 4. rewrite E1, E5. auto.
Qed.
Lemma wrapped_snoc : forall is bs i b s c, wrapped p s c is bs ->
  loop_ok p (fst (run p s is)) (fold_left flight_step (trace_of p s is) c) b i -> wrapped p s c (is ++ [i]) (bs ++ [b]).
Proof.
  induction is as [|j is IH]; intros bs i b s c WR LO; inversion WR as [|s1 c1 j1 b1 is1 bs1 L1 WR1]; subst.
  - constructor; auto. constructor.
  - cbn [app]. constructor; auto. apply IH; auto.
    change (j :: is) with ([j] ++ is) in LO. rewrite trace_app, fold_left_app, trace_one, run_app in LO. cbn [fst fold_left] in LO. exact LO.
Qed.
Lemma direct_app : forall is bs is' bs', length is = length bs -> direct (is ++ is') (bs ++ bs') = direct is bs ++ direct is' bs'.
Proof. induction is as [|i is IH]; intros [|b bs] is' bs' L; try discriminate; cbn; auto. f_equal. apply IH. cbn in L. lia. Qed.
Lemma wrapped_length : forall s c is bs, wrapped p s c is bs -> length is = length bs.
Proof. induction 1; cbn; auto. Qed.

Theorem wrapped_exists : forall is s0 m0 m rq rs, sys_run p s0 is m0 m rq rs ->
  exists is', direct is' (map i_resp_rdy is) = is /\ wrapped p s0 0 is' (map i_resp_rdy is) /\ sys_run p s0 is' m0 m rq rs.
Proof.
  intros is s0 m0 m rq rs R.
  enough (exists is', direct is' (map i_resp_rdy is) = is /\ wrapped p s0 0 is' (map i_resp_rdy is) /\ 
    fst (run p s0 is') = fst (run p s0 is) /\ Forall2 same_io (trace_of p s0 is) (trace_of p s0 is')) as (is' & E & WR & _ & F).
  { exists is'. split; auto. split; auto. destruct R as (RS & C & M). split; auto. split; [eapply client_same | eapply mem_trace_same]; eauto. }
  revert s0 m0 m rq rs R. induction is as [|i is IH] using rev_ind; intros s0 m0 m rq rs R.
  - exists []. split; auto. split; [constructor|]. split; auto. constructor.
  - destruct (sys_app p _ _ _ _ _ _ _ R) as (m1 & rq1 & rs1 & R1 & _).
    destruct (IH _ _ _ _ _ R1) as (is' & E & WR & RE & F).
    destruct (sys_flight_rdy _ _ _ _ _ _ i (i_resp_rdy i) R1) as [(x & LO & _) EQ].
    destruct (EQ x LO) as [EO EN]. 
    assert (EI : with_rdy i (i_resp_rdy i) = i) by (destruct i; reflexivity). rewrite EI in EO, EN.
    exists (is' ++ [with_rdy i x]). rewrite map_app. cbn [map].
    rewrite direct_app by (eapply wrapped_length; eauto). rewrite E. cbn [direct].
    split; [f_equal; destruct i; reflexivity|].
    split. { apply wrapped_snoc; auto. rewrite RE, <- (flight_same _ _ F). exact LO. }
    rewrite !run_snoc, !trace_snoc, RE, EN. split; auto.
    apply Forall2_app; auto. constructor; [|constructor]. unfold same_io. cbn [fst snd with_rdy i_req_en i_req i_mresp_en i_mresp].
    rewrite EO. auto.
Qed.
End F.
