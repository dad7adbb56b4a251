(** C71: WRITE_INIT does not block the cache: progress of runs with WRITE_INIT (one way). *)
From Coq Require Import Arith NArith List Bool Lia.
From Verif Require Import Bits Params Msg Units Rtl Mem Tl ParamsProofs RtlLemmas RefineInv RefineStall RefineReq RefineAdv1 RefineProofs
  Spec System SysProofs SysFacts Facts1 Facts2 Progress Traffic Hide Obliv Proto LiveSpec Live InitSpec Init Init2 Init3.
Import ListNotations.
Open Scope N_scope.

Section I5.
Variable p : params.
Hypothesis W : wf_params p.
Hypothesis A1 : p_assoc p = 1.

Lemma ini_resp1 : forall s, t1 s = TR_INIT_REQ -> is_some (resp1 p s) = true.
Proof. intros s T. unfold resp1. rewrite (ini_evict p s T), T. reflexivity. Qed.

(** From the answer in M1 on nothing can come in between. *)
Lemma advance_resp1 : forall s i n n', ostall2 s i = false -> resp2 p s = None -> is_some (resp1 p s) = true ->
  mu p (next p s i) n' < mu p s n.
Proof.
  intros s i n n' S R2 R1. assert (E : resp2 p (next p s i) = resp1 p s) by (rewrite an_resp2 by auto; reflexivity).
  unfold mu. rewrite E, R2, R1. cbn [is_some]. lia.
Qed.
Lemma mu_two : forall s n, resp2 p s = None -> 2 <= mu p s n.
Proof. intros s n R. unfold mu. rewrite R. cbn [is_some]. destruct (is_some (resp1 p s)); [lia|]. pose proof (core_ge p W s n). lia. Qed.

Lemma advanceI : forall s a i, phaseI p s a -> legalI p s (a_outst a) i -> ostall2 s i = false ->
  resp2 p s = None -> (a_cur a <> None \/ a_pend a <> []) ->
  let n := len (a_outst a) in let n' := len (outst_next (a_outst a) i (output p s i)) in
  mu p (next p s i) n' <= mu p s n /\
  (a_outst a = [] \/ i_mresp_en i = true -> mu p (next p s i) n' < mu p s n).
Proof.
  intros s a i PI L S R2 FL n n'. destruct (is_some (resp1 p s)) eqn:R1.
  { pose proof (advance_resp1 s i n n' S R2 R1). split; [lia|auto]. }
  destruct PI as [[P | P] Z]; [|exfalso; rewrite (ini_resp1 s (ii_t1 _ _ _ P)) in R1; discriminate].
  destruct (is_ini i) eqn:E; [|apply advance; auto; apply legal_of; auto].
  pose proof (legal_noresp p s a i (conj (or_introl P) Z) L E) as NM.
  assert (R : req_rdy p s i = true).
  { unfold is_ini in E. apply andb_prop in E. apply (li_req _ _ _ _ L). tauto. }
  pose proof (rdy_pre p s a i (conj (or_introl P) Z) R) as PR.
  assert (S0 : ostall2 s (noreq i) = false) by exact S.
  pose proof (advance p W s a (noreq i) P (legal_noreq p _ _ _ L) S0 R2 FL) as AD. cbv zeta in AD. fold n in AD.
  change (len (outst_next (a_outst a) (noreq i) (output p s (noreq i)))) with n' in AD.
  change (i_mresp_en (noreq i)) with (i_mresp_en i) in AD.
  assert (E2 : resp2 p (next p s i) = None).
  { rewrite an_resp2 by auto. change (resp1 p s = None). destruct (resp1 p s); [discriminate|auto]. }
  assert (E3 : resp2 p (next p s (noreq i)) = None).
  { rewrite an_resp2 by auto. change (resp1 p s = None). destruct (resp1 p s); [discriminate|auto]. }
  assert (LE : mu p (next p s i) n' <= mu p (next p s (noreq i)) n').
  { pose proof (mu_two (next p s (noreq i)) n' E3).
    assert (T : t1 (next p s i) = TR_INIT_REQ) by (rewrite an_t1 by (destruct PR; auto); apply ini_trans0; auto).
    unfold mu at 1. rewrite E2, (ini_resp1 _ T). cbn [is_some]. lia. }
  destruct AD as [AD1 AD2]. split; [lia|]. intros C. specialize (AD2 C). lia.
Qed.

Lemma stalledI : forall s a i, phaseI p s a -> legalI p s (a_outst a) i -> ostall2 s i = true ->
  mu p (next p s i) (len (outst_next (a_outst a) i (output p s i))) <= mu p s (len (a_outst a)).
Proof.
  intros s a i PI L S.
  assert (E : is_ini i = false).
  { destruct (is_ini i) eqn:E; auto. exfalso. assert (R : req_rdy p s i = true).
    { unfold is_ini in E. apply andb_prop in E. apply (li_req _ _ _ _ L). tauto. }
    pose proof (rdy_pre p s a i PI R) as []. congruence. }
  pose proof (legal_of _ _ _ _ L E) as L0. destruct PI as [[P | P] Z]; [apply stalled; auto|].
  assert (R1 : is_some (resp1 p s) = true) by (apply ini_resp1; apply (ii_t1 _ _ _ P)).
  assert (FI : fsm s <> F_INIT) by (rewrite (ii_fsm _ _ _ P); discriminate).
  assert (TI : t1 s <> TR_CACHE_INIT) by (rewrite (ii_t1 _ _ _ P); discriminate).
  pose proof (noreq_stall p _ _ _ L0 (stall01_m2 p _ _ S)) as NR.
  pose proof (stall_same p _ _ S FI TI NR) as SM.
  match type of SM with same _ _ ?s' => generalize dependent s' end; intros s' SM.
  unfold mu. rewrite (sm_resp2 _ _ _ SM), (sm_resp1 _ _ _ SM), R1. lia.
Qed.

Lemma mu_boundI : forall s a, phaseI p s a -> len (a_outst a) <= 2 -> mu p s (len (a_outst a)) <= 5 * total_lines p + 3.
Proof.
  intros s a [[P | P] Z] L; [apply mu_bound; auto|]. unfold mu. rewrite (ini_resp1 s (ii_t1 _ _ _ P)).
  pose proof (total_ge2 p W). destruct (is_some (resp2 p s)); lia.
Qed.

(** *** The state after a run *)
Lemma init_long : forall is s k, ph_init p s k -> legal_runI p s [] is ->
  exists c0 a', clean_start p c0 /\ arunsI p (mkA c0 None []) (combine is (snd (run p s is))) a' /\
    (phaseI p (fst (run p s is)) a' \/
     a' = mkA c0 None [] /\ N.of_nat (length is) <= k).
Proof.
  induction is as [|i is IH]; intros s k P L.
  - exists (mkC (fun _ _ => 0) (fun _ => 0) (fun _ => 0)). eexists. split; [|split; [constructor|]].
    + split; cbn [ct cr]; auto. intros. split; [unfold te_val; apply N.bits_0 | apply te_dty_0].
    + right. split; [auto|]. cbn. lia.
  - destruct L as [L1 L2].
    assert (NI : i_req_en i = false).
    { destruct (i_req_en i) eqn:E; auto. destruct (li_req _ _ _ _ L1 E) as [R _]. unfold req_rdy in R. destruct P. rewrite in_fsm in R. discriminate R. }
    assert (L1' : legal p s [] i) by (apply legal_of; auto; unfold is_ini; rewrite NI; auto).
    destruct (init_step p W s k i P L1') as (O & RE & NM & N').
    assert (E : outst_next [] i (output p s i) = []) by (unfold outst_next; rewrite O, NM; auto).
    rewrite E in L2. destruct N' as [(K & N') | (K & c0 & C & N')].
    + destruct (IH _ _ N' L2) as (c0 & a' & C & R & Z).
      exists c0, a'. cbn [run step fst snd length].
      destruct (run p (next p s i) is) as [s2 os] eqn:E'. cbn [fst snd combine] in *.
      split; auto. split; [econstructor; eauto; rewrite O; apply acycI_idle; auto|].
      destruct Z as [Z | [Z1 Z2]]; [left; auto | right; split; auto]. lia.
    + assert (Z0 : rep0 (next p s i)) by (apply rep0_next; destruct P; auto).
      destruct (run_simI p W A1 is (next p s i) (mkA c0 None [])) as (a' & R & Z); auto.
      { split; auto. }
      exists c0, a'. cbn [run step fst snd].
      destruct (run p (next p s i) is) as [s2 os] eqn:E'. cbn [fst snd combine] in *.
      split; auto. split; auto. econstructor; eauto. rewrite O. apply acycI_idle; auto.
Qed.

Definition nc (a : ast) : nat := match a_cur a with Some _ => 1 | None => 0 end.
Lemma arunsI_outst : forall a tr a', arunsI p a tr a' -> forall s is, tr = combine is (snd (run p s is)) ->
  a_outst a' = outs p s (a_outst a) is.
Proof.
  induction 1 as [a | a i o a1 tr a2 C R IH]; intros s is E.
  - destruct is; [reflexivity|]. cbn [run step snd] in E. destruct (run p (next p s i) is). discriminate E.
  - destruct is as [|j is]; [discriminate E|]. cbn [run step] in E. destruct (run p (next p s j) is) as [s2 os] eqn:RE. cbn [snd combine] in E.
    injection E as -> -> E. cbn [outs]. rewrite <- (acycI_outst p _ _ _ _ C). apply IH. rewrite RE. exact E.
Qed.

Lemma ini_state : forall s0 is, init_run p s0 is -> let tr := trace_of p s0 is in
  exists a, a_outst a = outstanding tr /\ (length (accepted tr) = length (responses tr) + length (a_pend a) + nc a)%nat /\
    (phaseI p (fst (run p s0 is)) a \/ a_pend a = [] /\ a_cur a = None /\ N.of_nat (length is) < total_lines p).
Proof.
  intros s0 is P tr. destruct (init_legal p is s0 P) as [L O]. destruct P as (R & C & _).
  destruct (init_long is s0 _ (reset_init p W s0 R) L) as (c0 & a' & CS & AR & FIN).
  assert (F : Forall (fun io => cl_ok p (fst io)) (trace_of p s0 is)).
  { eapply Forall_impl; [|exact C]. intros io H EN. apply H; auto. }
  pose proof (arunsI_outst _ _ _ AR s0 is eq_refl) as OU. change (a_outst (mkA c0 None [])) with (@nil mreq) in OU. rewrite O in OU.
  destruct (J_run p W A1 _ _ _ AR F [] [] (J_start p A1 c0 CS)) as (A0 & E & _ & LN & _).
  cbn [app] in E, LN. fold (trace_of p s0 is) in E, LN. fold tr in E, LN, OU.
  exists a'. split; [exact OU|]. split.
  - rewrite E, app_length, LN, app_length. unfold cur, nc. destruct (a_cur a'); cbn [length]; lia.
  - destruct FIN as [FIN | [-> FIN]]; [left; exact FIN | right]. cbn [a_pend a_cur]. pose proof (total_ge2 p W). repeat split; auto. lia.
Qed.
Lemma ini_flight : forall s0 is, init_run p s0 is -> let tr := trace_of p s0 is in
  (length (responses tr) < length (accepted tr))%nat ->
  exists a, a_outst a = outstanding tr /\ phaseI p (fst (run p s0 is)) a /\ (a_cur a <> None \/ a_pend a <> []).
Proof.
  intros s0 is P tr LT. destruct (ini_state s0 is P) as (a & O & C & F). fold tr in O, C. exists a. split; auto.
  unfold nc in C. destruct F as [F | (F1 & F2 & _)].
  - split; auto. destruct (a_cur a); [left; discriminate|]. right. intros X. rewrite X in C. cbn in C. lia.
  - rewrite F1, F2 in C. cbn in C. lia.
Qed.
Lemma phaseI_pend : forall s a, phaseI p s a -> (length (a_pend a) + nc a <= 2)%nat.
Proof.
  intros s a [[P | P] _]; [apply (phase_pend p s a P)|]. unfold nc. rewrite (ii_cur _ _ _ P), (ii_pend _ _ _ P), app_length.
  destruct (resp2 p s), (resp1 p s); cbn; lia.
Qed.
Theorem ini_inflight : forall s0 is, init_run p s0 is -> let tr := trace_of p s0 is in
  (length (responses tr) <= length (accepted tr) <= length (responses tr) + 2)%nat.
Proof.
  intros s0 is P tr. destruct (ini_state s0 is P) as (a & O & C & F). fold tr in C. destruct F as [F | (F1 & F2 & _)].
  - pose proof (phaseI_pend _ _ F). lia.
  - unfold nc in C. rewrite F1, F2 in C. cbn in C. lia.
Qed.
(** At most two memory requests are unanswered. *)
Definition few (a : ast) : Prop := forall u, a_cur a = Some u ->
  (cq_type (u_req u) <> T_FLUSH /\ length (u_todo u) + length (u_out u) <= 2)%nat \/ (cq_type (u_req u) = T_FLUSH /\ length (u_out u) <= 1)%nat.
Lemma few_cyc : forall a i o a', few a -> acyc p a i o a' -> few a'.
Proof.
  intros a i o a' F (b1 & b2 & b3 & R1 & R2 & R3 & R4).
  assert (F1 : few b1).
  { unfold o_recv in R1. destruct (i_mresp_en i); [|subst; exact F]. inversion R1; subst. intros u U. injection U as <-.
    specialize (F _ eq_refl). cbn [u_req u_todo u_out length] in *. destruct F as [[F1 F2]|[F1 F2]]; [left | right]; split; auto; lia. }
  assert (F2 : few b2).
  { unfold o_send in R2. destruct (o_mreq o), (o_resp o); try contradiction.
    - inversion R2; subst. intros u U. injection U as <-. specialize (F1 _ eq_refl). cbn [u_req u_todo u_out length] in *. rewrite app_length. cbn [length].
      destruct F1 as [[G1 G2]|[G1 G2]]; [left; split; auto; lia | right; split; auto].
      rewrite (H0 G1). cbn. lia.
    - inversion R2; subst. exact F1.
    - subst. exact F1. }
  assert (F3 : few b3).
  { destruct R3 as [R3|R3]; [|subst; exact F2]. inversion R3; subst. intros u U. discriminate U. }
  unfold o_acc in R4. destruct (i_req_en i); [|subst; exact F3]. inversion R4; subst. intros u U. injection U as <-. cbn [u_req u_todo u_out length].
  destruct (N.eq_dec (cq_type (i_req i)) T_FLUSH) as [E|E]; [right; split; auto | left; split; auto].
  pose proof (tl_reqs_le2 p c (i_req i) E). lia.
Qed.
Lemma few_cycI : forall a i o a', few a -> acycI p a i o a' -> few a'.
Proof.
  intros a i o a' F C. unfold acycI in C. destruct (is_ini i); [|eapply few_cyc; eauto].
  destruct C as (a1 & dm & _ & _ & ->). intros u U. discriminate U.
Qed.
Lemma few_run : forall a tr a', arunsI p a tr a' -> few a -> few a'.
Proof. induction 1; auto. intros. apply IHarunsI. eapply few_cycI; eauto. Qed.
Lemma few_outst : forall a, few a -> (length (a_outst a) <= 2)%nat.
Proof. intros a F. unfold a_outst. destruct (a_cur a) as [u|] eqn:E; [|cbn; lia]. destruct (F u E) as [[_ L]|[_ L]]; lia. Qed.

Theorem ini_outst : forall s0 is, init_run p s0 is -> (length (outstanding (trace_of p s0 is)) <= 2)%nat.
Proof.
  intros s0 is P. destruct (init_legal p is s0 P) as [L O]. destruct P as (R & C & _).
  destruct (init_long is s0 _ (reset_init p W s0 R) L) as (c0 & a' & CS & AR & FIN).
  pose proof (arunsI_outst _ _ _ AR s0 is eq_refl) as OU. change (a_outst (mkA c0 None [])) with (@nil mreq) in OU. rewrite O in OU.
  rewrite <- OU. apply few_outst. eapply few_run; eauto. intros u U. discriminate U.
Qed.

(** *** Progress *)
Lemma ini_cycle : forall s0 is i, init_run p s0 (is ++ [i]) -> legalI p (fst (run p s0 is)) (outstanding (trace_of p s0 is)) i /\
  outstanding (trace_of p s0 (is ++ [i])) = outst_next (outstanding (trace_of p s0 is)) i (output p (fst (run p s0 is)) i).
Proof.
  intros s0 is i P. destruct (init_legal p _ s0 P) as [L O]. destruct (init_legal p is s0 (init_app p s0 is [i] P)) as [_ O1].
  assert (G : forall is s out, legal_runI p s out (is ++ [i]) -> legalI p (fst (run p s is)) (outs p s out is) i).
  { clear. induction is as [|j is IH]; intros s out H; cbn [app legal_runI outs run fst] in *; [apply H|].
    destruct H as [_ H]. cbn [run step]. specialize (IH _ _ H). destruct (run p (next p s j) is) as [s2 os]. exact IH. }
  specialize (G is s0 [] L). rewrite O1 in G. split; [exact G|]. rewrite <- O, outs_snoc, O1. auto.
Qed.

Lemma ini_within : forall is2 is s0, init_run p s0 (is ++ is2) ->
  let tr := trace_of p s0 is in
  (length (responses tr) < length (accepted tr))%nat ->
  mu p (fst (run p s0 is)) (len (outstanding tr)) <= N.of_nat (productive_cycles tr (trace_of p (fst (run p s0 is)) is2)) ->
  exists ia i ib, is2 = ia ++ i :: ib /\ o_resp (output p (fst (run p s0 (is ++ ia))) i) <> None /\
    N.of_nat (productive_cycles tr (trace_of p (fst (run p s0 is)) (ia ++ [i]))) <= mu p (fst (run p s0 is)) (len (outstanding tr)).
Proof.
  induction is2 as [|i is2 IH]; intros is s0 R tr LT MU.
  - cbn [trace_of run combine productive_cycles] in MU. pose proof (mu_pos p W (fst (run p s0 is)) (len (outstanding tr))).
    unfold trace_of in MU. cbn in MU. lia.
  - pose proof R as RR. change (i :: is2) with ([i] ++ is2) in RR. rewrite app_assoc in RR.
    pose proof (init_app p s0 _ _ RR) as R1. destruct (ini_cycle s0 is i R1) as [LG ON].
    destruct (ini_flight s0 is (init_app p s0 _ _ R1) LT) as (a & OT & PH & FL). fold tr in OT, LG, ON.
    set (s := fst (run p s0 is)) in *.
    rewrite trace_cons in MU. cbn [productive_cycles fst] in MU. rewrite <- OT in MU, LG, ON |- *.
    assert (REC : o_resp (output p s i) = None ->
       mu p (next p s i) (len (outst_next (a_outst a) i (output p s i))) + (if productive tr i then 1 else 0) <= mu p s (len (a_outst a)) ->
       exists ia i0 ib, i :: is2 = ia ++ i0 :: ib /\ o_resp (output p (fst (run p s0 (is ++ ia))) i0) <> None /\
         N.of_nat (productive_cycles tr (trace_of p s (ia ++ [i0]))) <= mu p s (len (a_outst a))).
    { intros NR LE. specialize (IH (is ++ [i]) s0 RR). cbv zeta in IH. rewrite run_snoc, ON in IH. fold s in IH.
      assert (LT' : (length (responses (trace_of p s0 (is ++ [i]))) < length (accepted (trace_of p s0 (is ++ [i]))))%nat).
      { rewrite trace_snoc, responses_app, accepted_app, !app_length. fold tr s. unfold responses at 2. cbn [flat_map snd fst].
        rewrite NR. cbn [opt_list app length]. lia. }
      specialize (IH LT'). rewrite trace_snoc in IH. fold tr s in IH.
      destruct IH as (ia & j & ib & E & RS & LE2).
      { destruct (productive tr i); lia. }
      exists (i :: ia), j, ib. split; [rewrite E; auto|]. split.
      - rewrite <- app_assoc in RS. exact RS.
      - cbn [app]. rewrite trace_cons. cbn [productive_cycles fst]. destruct (productive tr i); lia. }
    destruct (ostall2 s i) eqn:S.
    + destruct (out_stall p s i S) as [OR _]. apply REC; auto.
      pose proof (stalledI s a i PH LG S) as LE.
      replace (productive tr i) with false; [lia|]. symmetry. unfold productive.
      rewrite ostall2_eq in S. apply andb_prop in S. destruct S as [_ S]. destruct (i_resp_rdy i), (i_mreq_rdy i); auto; discriminate.
    + destruct (out_nostall p s i S) as [OR _]. destruct (resp2 p s) as [y|] eqn:R2.
      * exists [], i, is2. split; auto. cbn [app]. rewrite app_nil_r. fold s. rewrite OR. split; [discriminate|].
        rewrite trace_one. cbn [productive_cycles]. pose proof (mu_pos p W s (len (a_outst a))). destruct (productive tr _); lia.
      * apply REC; auto. destruct (advanceI s a i PH LG S R2 FL) as [LE LT2].
        destruct (productive tr i) eqn:PR; [|lia].
        assert (X : mu p (next p s i) (len (outst_next (a_outst a) i (output p s i))) < mu p s (len (a_outst a))); [|lia].
        apply LT2. unfold productive in PR. rewrite <- OT in PR. apply andb_prop in PR. destruct PR as [_ PR].
        destruct (a_outst a); auto.
Qed.

Lemma ini_drain : forall k is is2 s0 A, init_run p s0 (is ++ is2) ->
  let tr := trace_of p s0 is in
  (A <= length (accepted tr))%nat -> (A <= length (responses tr) + k)%nat ->
  (k * bound p <= productive_cycles tr (trace_of p (fst (run p s0 is)) is2))%nat ->
  (A <= length (responses (trace_of p s0 (is ++ is2))))%nat.
Proof.
  induction k as [|k IH]; intros is is2 s0 A R tr A2 A3 C.
  - rewrite trace_app, responses_app, app_length. fold tr. lia.
  - destruct (Nat.le_gt_cases A (length (responses tr))) as [LE|GT].
    { rewrite trace_app, responses_app, app_length. fold tr. lia. }
    pose proof (init_app p _ _ _ R) as R1.
    destruct (ini_flight s0 is R1) as (a & OT & PH & FL); [fold tr; lia|]. fold tr in OT.
    pose proof (ini_outst s0 is R1) as OL. fold tr in OL.
    pose proof (mu_boundI _ _ PH ltac:(rewrite OT; unfold len; lia)) as MB. rewrite OT in MB.
    destruct (ini_within is2 is s0 R) as (ia & i & ib & E & RS & LE).
    { fold tr. lia. }
    { fold tr. unfold bound in C. nia. }
    fold tr in LE. subst is2.
    replace (is ++ ia ++ i :: ib) with ((is ++ ia ++ [i]) ++ ib) in R |- * by (rewrite <- !app_assoc; auto).
    eapply IH; eauto.
    + rewrite trace_app, accepted_app, app_length. fold tr. lia.
    + rewrite app_assoc, trace_snoc, responses_app, trace_app, responses_app, !app_length. fold tr.
      unfold responses at 3. cbn [flat_map snd]. destruct (o_resp _); [|congruence]. cbn. lia.
    + replace (ia ++ i :: ib) with ((ia ++ [i]) ++ ib) in C by (rewrite <- app_assoc; auto).
      rewrite trace_app, productive_app in C. rewrite run_app. cbn [fst]. rewrite (trace_app p is (ia ++ [i])). fold tr.
      unfold bound in *. nia.
Qed.

Theorem ini_progress : forall is is2 s0, init_run p s0 (is ++ is2) ->
  let tr := trace_of p s0 is in
  (2 * N.to_nat (5 * total_lines p + 3) <= productive_cycles tr (trace_of p (fst (run p s0 is)) is2))%nat ->
  (length (accepted tr) <= length (responses (trace_of p s0 (is ++ is2))))%nat.
Proof.
  intros is is2 s0 R tr C. eapply (ini_drain 2%nat); eauto.
  pose proof (ini_inflight s0 is (init_app p _ _ _ R)) as SI. cbv zeta in SI. fold tr in SI |- *. lia.
Qed.

Theorem ini_progress_latency : forall L is is2 s0, init_run p s0 (is ++ is2) ->
  let tr := trace_of p s0 is in let tr2 := trace_of p (fst (run p s0 is)) is2 in
  Forall (fun i => i_resp_rdy i && i_mreq_rdy i = true) is2 -> answers_within L tr tr2 ->
  (2 * N.to_nat (5 * total_lines p + 3) * (L + 1) <= length is2)%nat ->
  (length (accepted tr) <= length (responses (trace_of p s0 (is ++ is2))))%nat.
Proof.
  intros L is is2 s0 R tr tr2 F AW LE. eapply ini_progress; eauto.
  apply (latency_count L); auto.
  - clear -F. generalize (fst (run p s0 is)). induction F as [|i is2 H F IH]; intros s; [constructor|].
    rewrite trace_cons. constructor; auto.
  - rewrite trace_length. replace (S L) with (L + 1)%nat by lia. auto.
Qed.

(** *** Readiness *)
Lemma ini_ready_state : forall is i s0, init_run p s0 is -> total_lines p <= N.of_nat (length is) ->
  (length (accepted (trace_of p s0 is)) <= length (responses (trace_of p s0 is)))%nat ->
  i_resp_rdy i && i_mreq_rdy i = true -> o_req_rdy (output p (fst (run p s0 is)) i) = true.
Proof.
  intros is i s0 P TL LE RD. destruct (ini_state s0 is P) as (a & O & C & F).
  destruct F as [F | (_ & _ & F)]; [|lia].
  assert (CN : a_cur a = None) by (unfold nc in C; destruct (a_cur a); [lia|auto]).
  assert (PN : a_pend a = []) by (destruct (a_pend a); [auto | cbn [length] in C; lia]).
  destruct F as [[PH | PH] _].
  - pose proof (phase_idle p _ _ PH CN) as ID. cbn [output o_req_rdy]. eapply idle_ready; eauto.
    rewrite ostall2_eq. apply andb_prop in RD. destruct RD as [-> ->]. cbn [negb orb]. apply andb_false_r.
  - exfalso. pose proof (ii_pend _ _ _ PH) as E. rewrite PN in E. pose proof (ini_resp1 _ (ii_t1 _ _ _ PH)) as R1.
    destruct (resp2 p (fst (run p s0 is))), (resp1 p (fst (run p s0 is))); discriminate.
Qed.
Theorem ini_ready : forall is is2 i s0, init_run p s0 (is ++ is2) ->
  accepted (trace_of p (fst (run p s0 is)) is2) = [] ->
  (B2 p <= productive_cycles (trace_of p s0 is) (trace_of p (fst (run p s0 is)) is2))%nat ->
  i_resp_rdy i && i_mreq_rdy i = true -> o_req_rdy (output p (fst (run p s0 (is ++ is2))) i) = true.
Proof.
  intros is is2 i s0 P NA PC RD. pose proof (ini_progress is is2 s0 P PC) as PR. cbv zeta in PR.
  apply ini_ready_state; auto.
  - pose proof (productive_le (trace_of p (fst (run p s0 is)) is2) (trace_of p s0 is)) as PL. rewrite trace_length in PL. rewrite app_length.
    unfold B2 in PC. lia.
  - rewrite trace_app, accepted_app, NA, app_nil_r, <- trace_app. exact PR.
Qed.

Theorem ini_accepts : forall total is s0, init_run p s0 is ->
  (total * (B2 p + 1) <= offer_cycles total [] (trace_of p s0 is))%nat -> (total <= length (accepted (trace_of p s0 is)))%nat.
Proof.
  intros total is s0 P LE.
  assert (INV : (total <= length (accepted (trace_of p s0 is)))%nat \/
    exists u v, is = u ++ v /\ accepted (trace_of p (fst (run p s0 u)) v) = [] /\
      (offer_cycles total (trace_of p s0 u) (trace_of p (fst (run p s0 u)) v) <= B2 p)%nat /\
      (offer_cycles total [] (trace_of p s0 u) <= length (accepted (trace_of p s0 u)) * (B2 p + 1))%nat).
  { clear LE. revert P. induction is as [|i is IH] using rev_ind; intros P.
    - right. exists [], []. split; auto. split; auto. cbn. split; lia.
    - pose proof (init_app p _ _ _ P) as PP. specialize (IH PP). rewrite trace_snoc, accepted_app, app_length. set (s := fst (run p s0 is)) in *.
      destruct IH as [IH | (u & v & E & NA & L1 & L2)]; [left; lia|].
      destruct (Nat.le_gt_cases total (length (accepted (trace_of p s0 is)))) as [D|ND]; [left; lia|].
      pose proof (trace_app p u v s0) as TA.
      right. destruct (i_req_en i) eqn:EN.
      + exists (is ++ [i]), []. rewrite app_nil_r. split; auto. split; [reflexivity|]. split; [cbn; lia|].
        rewrite trace_snoc. fold s. rewrite accepted_app, offer_app, app_length, acc_one. cbn [fst]. rewrite EN. cbn [length].
        rewrite E, TA, offer_app, accepted_app, NA, app_nil_r. cbn [app offer_cycles]. destruct (_ && _); lia.
      + exists u, (v ++ [i]). split; [rewrite app_assoc, E; auto|]. rewrite trace_snoc.
        assert (ES : fst (run p (fst (run p s0 u)) v) = s) by (unfold s; rewrite E, run_app; auto). rewrite ES.
        split; [rewrite accepted_app, NA, acc_one; cbn [fst]; rewrite EN; auto|]. split; [|auto].
        rewrite offer_app. cbn [offer_cycles]. destruct (productive _ _ && offers _ _ _) eqn:G; [|lia].
        destruct (Nat.lt_ge_cases (offer_cycles total (trace_of p s0 u) (trace_of p (fst (run p s0 u)) v)) (B2 p)) as [LT|GE]; [lia|exfalso].
        apply andb_prop in G. destruct G as [G1 G2]. cbn [fst] in G1.
        assert (RD : i_resp_rdy i && i_mreq_rdy i = true) by (unfold productive in G1; apply andb_prop in G1; apply G1).
        rewrite E in PP. pose proof (ini_ready u v i s0 PP) as PR.
        assert (OR : o_req_rdy (output p s i) = true).
        { unfold s. rewrite E. apply PR; auto. pose proof (offer_le total (trace_of p (fst (run p s0 u)) v) (trace_of p s0 u)). lia. }
        unfold offers in G2. cbn [fst snd] in G2. rewrite OR, EN, <- TA, <- E in G2. cbn [implb orb] in G2. apply Nat.leb_le in G2. lia. }
  destruct INV as [D | (u & v & -> & NA & L1 & L2)]; auto.
  rewrite trace_app in LE |- *. rewrite offer_app in LE. cbn [app] in LE. rewrite accepted_app, NA, app_nil_r. nia.
Qed.

Theorem ini_completes : forall total is is2 s0, init_run p s0 (is ++ is2) ->
  (total * (B2 p + 1) <= offer_cycles total [] (trace_of p s0 is))%nat ->
  (B2 p <= productive_cycles (trace_of p s0 is) (trace_of p (fst (run p s0 is)) is2))%nat ->
  (total <= length (responses (trace_of p s0 (is ++ is2))))%nat.
Proof. intros total is is2 s0 P O C. pose proof (ini_accepts total is s0 (init_app p _ _ _ P) O). pose proof (ini_progress is is2 s0 P C). cbv zeta in *. lia. Qed.
End I5.
