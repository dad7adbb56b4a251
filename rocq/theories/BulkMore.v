(** Race-free tests pass in every run; the driver of MulticoreModel; an executable
    check of race freedom. *)
From Coq Require Import Arith NArith List Bool Lia Sorted.
From Verif Require Import Bits Params Msg Units Rtl Mem Spec System Tl ParamsProofs RefineInv RefineProofs
  UnitProofs ViewDefs ViewOps ViewProofs SysProofs SysFacts Traffic MetaProofs PendProofs TrafProofs Facts3
  Hide Proto MultiSys MultiProofs MultiFacts DynSpec DynProofs DynFacts DynMore Multicore BulkSpec BulkProofs.
Import ListNotations.
Open Scope N_scope.

Lemma lru_nth : forall p A L j r, nth_error A j = Some r ->
  nth_error (lru_tests p L A) j = Some (snd (lru_step p (lru_run p L (firstn j A)) r)).
Proof.
  intros p. induction A as [|a A IH]; intros L j r E; [destruct j; discriminate E|]. destruct j as [|j]; cbn in E |- *.
  - congruence.
  - apply IH. auto.
Qed.
Lemma of_cache_split : forall i M j x, nth_error (of_cache i M) j = Some x ->
  exists l1 l2, M = l1 ++ x :: l2 /\ length (of_cache i l1) = j /\ m_cache x = i.
Proof.
  intros i. induction M as [|y M IH]; intros j x E; [destruct j; discriminate E|]. unfold of_cache in E. cbn [filter] in E.
  destruct (Nat.eqb_spec (m_cache y) i) as [EY|NY].
  - destruct j as [|j]; cbn [nth_error] in E.
    + injection E as ->. exists [], M. auto.
    + destruct (IH j x E) as (l1 & l2 & -> & L & C). exists (y :: l1), l2. split; auto. split; auto. unfold of_cache in *. cbn [filter].
      apply Nat.eqb_eq in EY. rewrite EY. cbn. auto.
  - destruct (IH j x E) as (l1 & l2 & -> & L & C). exists (y :: l1), l2. split; auto. split; auto. unfold of_cache in *. cbn [filter].
    apply Nat.eqb_neq in NY. rewrite NY. auto.
Qed.

Lemma acc_in : forall i ts t r, In t ts -> In r (accepted [t i]) -> In r (accepted (proj i ts)).
Proof.
  intros i. induction ts as [|u ts IH]; intros t r I R; [destruct I|]. change (proj i (u :: ts)) with ([u i] ++ proj i ts).
  rewrite accepted_app. apply in_or_app. destruct I as [->|I]; eauto.
Qed.

Section X.
Variable p : params.
Hypothesis W : wf_params p.

(** only the modifications of a word matter for it *)
Lemma flat_mods : forall K L m, K * 4 < 2 ^ p_abw p -> Forall (wf_req p) L ->
  agree p (mk K true) (flat_mem p m L) (flat_mem p m (filter (fun r => modb p r K) L)).
Proof.
  intros K L. induction L as [|r L IH]; intros m HK F; [apply agree_refl|]. inversion F; subst. cbn [filter].
  destruct (modb p r K) eqn:E.
  - cbn [flat_mem]. apply IH; auto.
  - cbn [flat_mem]. eapply agree_trans; [|apply IH; auto]. apply (flat_locals p W K); auto.
    apply (flat_keeps p K [r]). constructor; auto. split; auto. intros M. apply modb_ok in M. congruence.
Qed.
(** the data of a response depends on the words the request touches *)
Lemma flat_exec_ext : forall r m m', wf_req p r ->
  (forall k, k * 4 < 2 ^ p_abw p -> touches p r k -> agree p (mk k true) m m') -> snd (flat_exec p m r) = snd (flat_exec p m' r).
Proof.
  intros r m m' WF AG. unfold flat_exec. pose proof WF as (HA & _).
  assert (HW : word_num (cq_addr r) * 4 < 2 ^ p_abw p) by (pose proof (word_mul4 (cq_addr r)); lia).
  destruct (N.eqb_spec (cq_type r) T_READ) as [TR|TR]; cbn [snd].
  - assert (WR : wf_read p r).
    { destruct (rw_cases p r WF) as [X | (X & _)]; auto; [unfold rw_req; rewrite TR; auto | rewrite TR in X; discriminate X]. }
    apply rd_ext. rewrite N2Nat.id. intros j J. set (k := word_num (cq_addr r + j)).
    assert (HJ : cq_addr r + j < 2 ^ p_abw p) by (pose proof (req_in_range p W r WF (or_introl WR)); lia).
    apply (AG k); auto.
    + pose proof (word_mul4 (cq_addr r + j)); unfold k; lia.
    + left; split; auto; unfold k, word_num; split; apply N.div_le_mono; lia.
    + unfold mk. fold k. rewrite N.eqb_refl. auto.
  - destruct (N.eqb_spec (cq_type r) T_WRITE) as [TW|TW]; cbn [snd]; auto.
    destruct (is_amo (cq_type r)) eqn:IA; cbn [snd]; auto.
    apply rd_ext. intros k HK4. change (N.of_nat 4) with 4 in HK4.
    assert (WA : wf_amo p r).
    { destruct WF as (_ & _ & [X | [X | [X | [X | X]]]]); auto; try (destruct X; congruence); rewrite X in IA; discriminate IA. }
    pose proof WA as (_ & AL & _).
    apply (AG _ HW).
    + right. split; auto.
    + destruct (off_aligned p (cq_addr r) 2) as [_ OF]; [pose proof (offw_ge3 p W); lia | auto |].
      apply (addr_add p W); [apply WF|]. change (2 ^ 2) with 4 in OF. lia.
    + unfold mk. apply N.eqb_eq. unfold word_num. pose proof (N.div_mod' (cq_addr r) 4) as DM. rewrite AL in DM.
      set (z := cq_addr r / 4) in *. clearbody z. symmetry. apply N.div_unique with k; lia.
Qed.

End X.

Section Y.
Variable p : params.
Variable sz : nat -> N * N.
Variable n : nat.
Hypothesis W : wf_caches p sz n.
Notation pp := (sized p sz).

Theorem bulk_pass : forall s0 m0 M ts m rq rs i j y, test_ok p n M -> (forall k, k * 4 < 2 ^ p_abw p -> race_free p sz n k M) ->
  clients p sz n s0 ts -> mmem p n m0 no_reqs no_resps ts m rq rs -> released n M ts ->
  (i < n)%nat -> nth_error (responses (proj i ts)) j = Some y ->
  exists l1 x l2, M = l1 ++ x :: l2 /\ m_cache x = i /\ length (of_cache i l1) = j /\
    y = answer_to (pp i) (flat_mem p m0 (map m_req l1)) (map m_req (of_cache i l1)) (m_req x).
Proof.
  intros s0 m0 M ts m rq rs i j y TO RF CL MM RE I NY.
  assert (JA : (j < acc ts i (length ts))%nat).
  { pose proof (rsp_acc p sz n W s0 m0 ts m rq rs CL MM i (length ts) I) as R. unfold rsp in R. rewrite firstn_all in R.
    assert (j < length (responses (proj i ts)))%nat by (apply nth_error_Some; congruence). lia. }
  destruct (acc_cross p sz n s0 m0 M ts m rq rs RE CL MM i _ _ JA) as (T & t & LT & ET & EN & AT).
  destruct (acc_next p sz n s0 m0 M ts m rq rs RE CL MM T t i ET I EN) as (x & NX & RX).
  destruct (of_cache_split _ _ _ _ NX) as (l1 & l2 & EM & LC & XC).
  exists l1, x, l2. split; auto. split; auto. split; [lia|].
  pose proof (nth_error_split _ _ ET) as (ts1 & ts2 & ETS & LTS).
  assert (F1 : firstn T ts = ts1) by (rewrite ETS, <- LTS, firstn_app, Nat.sub_diag, firstn_all; cbn [firstn]; apply app_nil_r).
  assert (AC : length (accepted (proj i ts1)) = j) by (unfold acc in AT; rewrite F1 in AT; auto).
  pose proof (dyn_sc p sz n W s0 m0 (fun k => may_b p sz n M ts k) (fun k => own_b p sz n M ts k) ts1 t ts2 m rq rs i y) as SC.
  rewrite <- ETS in SC. specialize (SC MM CL (fun k HK => bulk_synced p sz n W s0 m0 M ts m rq rs RE CL MM k (RF k HK)) I EN).
  rewrite AC in SC. specialize (SC NY). rewrite RX in SC. destruct SC as (S1 & S2 & S3 & S4).
  unfold answer_to. destruct y as [yt yo ye yl yd]. cbn [cr_type cr_opq cr_len cr_data] in *. rewrite S1, S2, S3, S4. 
  assert (NA : nth_error (accepted (proj i ts)) j = Some (m_req x)).
  { rewrite ETS, proj_app, accepted_app. rewrite nth_error_app2 by lia. rewrite AC, Nat.sub_diag. cbn [proj map].
    change (t i :: map (fun t0 => t0 i) ts2) with ([t i] ++ proj i ts2). rewrite accepted_app, acc1, EN. cbn. congruence. }
  assert (NP : firstn j (accepted (proj i ts)) = map m_req (of_cache i l1)).
  { destruct (re_prog _ _ _ RE i I) as (rest & E).
    assert (LJ : (j < length (accepted (proj i ts)))%nat) by (apply nth_error_Some; congruence).
    apply (f_equal (firstn j)) in E. rewrite firstn_app in E. replace (j - length (accepted (proj i ts)))%nat with 0%nat in E by lia.
    cbn [firstn] in E. rewrite app_nil_r in E. rewrite <- E, EM, of_cache_app, map_app, firstn_app, map_length, LC, AT, Nat.sub_diag.
    cbn [firstn]. rewrite app_nil_r. apply firstn_all2. rewrite map_length. lia. }
  f_equal.
  - destruct (proto_tests (pp i) (W i I) _ _ (multi_proto p sz n s0 m0 _ _ _ _ i CL MM I)) as (rest & E).
    destruct (CL i I) as (_ & TR & _). rewrite <- TR in E. apply (f_equal (fun l => nth_error l j)) in E.
    rewrite (lru_nth _ _ _ _ _ NA), nth_error_app1 in E by (rewrite map_length; apply nth_error_Some; congruence).
    rewrite nth_error_map, NY, NP in E. cbn [option_map cr_test] in E. congruence.
  - assert (WFA : forall z, In z M -> wf_req p (m_req z)).
    { intros z Z. pose proof (to_range _ _ _ TO) as F. rewrite Forall_forall in F. apply F. auto. }
    apply (flat_exec_ext (pp i) (W i I)); [apply WFA; rewrite EM; apply in_or_app; right; left; auto|]. intros k HK TC.
    eapply agree_trans; [apply (flat_mods (pp i) (W i I) k); auto|].
    + apply Forall_forall. intros r R. unfold before in R.
      assert (A : forall i' r, (i' < n)%nat -> In r (accepted (proj i' ts)) -> wf_req p r).
      { intros i' r' I' R'. destruct (re_prog _ _ _ RE i' I') as (rest & E).
        assert (X : In r' (map m_req (of_cache i' M))) by (rewrite E; apply in_or_app; auto).
        apply in_map_iff in X. destruct X as (z & <- & Z). apply WFA. apply of_cache_in in Z. apply Z. }
      apply in_app_or in R. destruct R as [R|R].
      * unfold hist in R. apply in_flat_map in R. destruct R as (t' & T' & R). unfold cyc_reqs in R. apply in_flat_map in R.
        destruct R as (i' & I' & R). apply in_seq in I'. apply (A i'); [lia|]. rewrite ETS, proj_app, accepted_app. apply in_or_app. left.
        apply (acc_in i' ts1 t'); auto.
      * apply in_flat_map in R. destruct R as (i' & I' & R). apply in_seq in I'. apply (A i'); [lia|]. rewrite ETS, proj_app, accepted_app. apply in_or_app. right.
        cbn [proj map]. change (t i' :: map (fun t0 => t0 i') ts2) with ([t i'] ++ proj i' ts2). rewrite accepted_app. apply in_or_app. auto.
    + rewrite <- F1. pose proof (same_mods p sz n W s0 m0 M ts m rq rs TO RE CL MM k T t i x l1 l2 (RF k HK) ET I EN NX TC EM ltac:(lia)) as SM.
      change (modb p) with (modb (pp i)) in SM. rewrite SM.
      apply agree_sym. apply (flat_mods (pp i) (W i I)); auto. apply Forall_forall. intros r R. apply in_map_iff in R. destruct R as (z & <- & Z). apply WFA.
      rewrite EM. apply in_or_app. auto.
Qed.
Lemma exp_nth : forall i l1 seen x l2 m0, m_cache x = i ->
  nth_error (for_cache i (l1 ++ x :: l2) (expected p sz m0 seen (l1 ++ x :: l2))) (length (of_cache i l1)) =
  Some (answer_to (pp i) (flat_mem p m0 (map m_req (seen ++ l1))) (map m_req (of_cache i (seen ++ l1))) (m_req x)).
Proof.
  intros i. induction l1 as [|y l1 IH]; intros seen x l2 m0 C.
  - cbn [app expected]. unfold for_cache. cbn [combine filter fst]. rewrite C, Nat.eqb_refl. cbn. rewrite app_nil_r. auto.
  - cbn [app expected]. unfold for_cache, of_cache. cbn [combine filter fst]. specialize (IH (seen ++ [y]) x l2 m0 C).
    rewrite <- app_assoc in IH. cbn [app] in IH. destruct (Nat.eqb (m_cache y) i); cbn [map length nth_error]; exact IH.
Qed.
Theorem bulk_expected : forall s0 m0 M ts m rq rs i, test_ok p n M -> (forall k, k * 4 < 2 ^ p_abw p -> race_free p sz n k M) ->
  clients p sz n s0 ts -> mmem p n m0 no_reqs no_resps ts m rq rs -> released n M ts -> (i < n)%nat ->
  exists rest, for_cache i M (expected p sz m0 [] M) = responses (proj i ts) ++ rest.
Proof.
  intros s0 m0 M ts m rq rs i TO RF CL MM RE I.
  assert (H : forall j y, nth_error (responses (proj i ts)) j = Some y -> nth_error (for_cache i M (expected p sz m0 [] M)) j = Some y).
  { intros j y NY. destruct (bulk_pass s0 m0 M ts m rq rs i j y TO RF CL MM RE I NY) as (l1 & x & l2 & -> & C & <- & ->).
    rewrite exp_nth; auto. }
  revert H. generalize (for_cache i M (expected p sz m0 [] M)). generalize (responses (proj i ts)). clear.
  induction l as [|y l IH]; intros l' H; [exists l'; auto|]. destruct l' as [|z l'].
  - specialize (H 0%nat y eq_refl). discriminate H.
  - pose proof (H 0%nat y eq_refl) as Z. injection Z as ->. destruct (IH l') as (rest & ->).
    + intros j y' E. apply (H (S j)). auto.
    + exists rest. auto.
Qed.
Lemma expected_ext : forall m0 m0' M seen, (forall a, a < 2 ^ p_abw p -> trunc 8 (m0 a) = trunc 8 (m0' a)) ->
  Forall (fun x => (m_cache x < n)%nat /\ wf_req p (m_req x)) (seen ++ M) -> expected p sz m0 seen M = expected p sz m0' seen M.
Proof.
  intros m0 m0' M. induction M as [|x M IH]; intros seen AG F; auto. cbn [expected]. f_equal.
  - unfold answer_to. f_equal. apply Forall_app in F. destruct F as [F1 F2]. inversion F2 as [|? ? [I WF] ?]; subst. apply (flat_exec_ext (pp (m_cache x)) (W _ I)); auto.
    intros k HK _. apply (flat_locals (pp (m_cache x)) (W _ I) k).
    + apply Forall_forall. intros r R. apply in_map_iff in R. destruct R as (z & <- & Z). rewrite Forall_forall in F1. apply F1. auto.
    + intros a A _. auto.
  - apply IH; auto. rewrite <- app_assoc. auto.
Qed.
End Y.

(** *** The driver *)
Section D.
Variable p : params.
Variable sz : nat -> N * N.
Variable n : nat.
Hypothesis W : wf_caches p sz n.
Variables (s0 : nat -> st) (m0 : mem) (M : list msg) (ts : list cyc) (gs : list (nat -> bool)).
Variables (m : mem) (rq : nat -> list mreq) (rs : nat -> list mresp).
Hypothesis CL : clients p sz n s0 ts.
Hypothesis MM : mmem p n m0 no_reqs no_resps ts m rq rs.
Hypothesis DR : driven n M ts gs.

Definition mst (T : nat) : mc_st := mc_run n (map fst M) (mc_sigs n (firstn T ts) (firstn T gs)).
Lemma sigs_snoc : forall a b t g, length a = length b -> mc_sigs n (a ++ [t]) (b ++ [g]) = mc_sigs n a b ++ [mc_sig n t g].
Proof.
  unfold mc_sigs. induction a as [|x a IH]; intros [|y b] t g L; cbn in L; try discriminate L; cbn [app combine map]; auto.
  f_equal. apply IH. congruence.
Qed.
Lemma gs_at : forall T t, nth_error ts T = Some t -> exists g, nth_error gs T = Some g.
Proof.
  intros T t E. destruct (nth_error gs T) as [g|] eqn:G; eauto. apply nth_error_None in G. destruct DR as [L _].
  assert (T < length ts)%nat by (apply nth_error_Some; congruence). lia.
Qed.
Lemma firstn_S2 : forall A (l : list A) T t, nth_error l T = Some t -> firstn (S T) l = firstn T l ++ [t].
Proof.
  induction l as [|x l IH]; intros T t E; [destruct T; discriminate E|]. destruct T as [|T]; cbn in *; [congruence|]. rewrite (IH T t E). auto.
Qed.
Lemma mst_S : forall T t g, nth_error ts T = Some t -> nth_error gs T = Some g ->
  mst (S T) = mc_step n (map fst M) (mst T) (mc_sig n t g).
Proof.
  intros T t g E G. unfold mst. rewrite (firstn_S2 _ _ _ _ E), (firstn_S2 _ _ _ _ G), sigs_snoc.
  - unfold mc_run. rewrite fold_left_app. auto.
  - destruct DR as [L _]. rewrite !firstn_length. lia.
Qed.
Lemma dr_at : forall T t g i, nth_error ts T = Some t -> nth_error gs T = Some g -> (i < n)%nat ->
  match mc_sends (map fst M) (mst T) (mc_sig n t g) i with
  | Some _ => i_req_en (fst (t i)) = true /\ option_map m_req (nth_error (of_cache i M) (mc_sent (mst T) i)) = Some (i_req (fst (t i)))
  | None => i_req_en (fst (t i)) = false
  end.
Proof.
  intros T t g i E G I. destruct DR as [L D].
  pose proof (nth_error_split _ _ E) as (t1 & t2 & ET & LT). pose proof (nth_error_split _ _ G) as (g1 & g2 & EG & LG).
  pose proof (D _ _ _ _ _ _ ET EG ltac:(lia) i I) as X.
  assert (F1 : firstn T ts = t1) by (rewrite ET, <- LT, firstn_app, Nat.sub_diag, firstn_all; cbn [firstn]; apply app_nil_r).
  assert (F2 : firstn T gs = g1) by (rewrite EG, <- LG, firstn_app, Nat.sub_diag, firstn_all; cbn [firstn]; apply app_nil_r).
  unfold mst. rewrite F1, F2. exact X.
Qed.
Lemma src_of_map : forall L i, src_of (map fst L) i = map m_ord (of_cache i L).
Proof.
  induction L as [|x L IH]; intros i; auto. unfold src_of, of_cache in *. cbn [map filter]. unfold m_cache at 1. destruct (Nat.eqb (fst (fst x)) i); cbn [map]; rewrite IH; auto.
Qed.
Lemma sent_acc : forall T i, (T <= length ts)%nat -> (i < n)%nat -> mc_sent (mst T) i = acc ts i T /\
  accepted (proj i (firstn T ts)) = map m_req (firstn (acc ts i T) (of_cache i M)).
Proof.
  induction T as [|T IH]; intros i L I; [split; auto|].
  destruct (nth_error ts T) as [t|] eqn:E; [|apply nth_error_None in E; lia]. destruct (gs_at _ _ E) as (g & G).
  destruct (IH i ltac:(lia) I) as [IS IA]. pose proof (dr_at T t g i E G I) as D. rewrite (mst_S T t g E G). cbn [mc_step mc_sent].
  assert (AS : acc ts i (S T) = (acc ts i T + (if i_req_en (fst (t i)) then 1 else 0))%nat).
  { unfold acc. rewrite (firstn_S2 _ _ _ _ E), proj_app, accepted_app, app_length. cbn [proj map]. rewrite acc1. destruct (i_req_en (fst (t i))); auto. }
  rewrite AS. rewrite (firstn_S2 _ _ _ _ E), proj_app, accepted_app. cbn [proj map]. rewrite acc1, IA.
  destruct (mc_sends (map fst M) (mst T) (mc_sig n t g) i) as [o|].
  - destruct D as [EN NX]. rewrite EN. split; [lia|]. rewrite IS in NX. destruct (nth_error (of_cache i M) (acc ts i T)) as [x|] eqn:X; [|discriminate NX].
    injection NX as NX. rewrite Nat.add_1_r, (firstn_S2 _ _ _ _ X), map_app. cbn [map]. rewrite NX. auto.
  - rewrite D. rewrite Nat.add_0_r, app_nil_r. auto.
Qed.
Lemma answers_rsp : forall T i, (T <= length ts)%nat -> (i < n)%nat -> answers i (mc_sigs n (firstn T ts) (firstn T gs)) = rsp ts i T.
Proof.
  induction T as [|T IH]; intros i L I; auto.
  destruct (nth_error ts T) as [t|] eqn:E; [|apply nth_error_None in E; lia]. destruct (gs_at _ _ E) as (g & G).
  rewrite (firstn_S2 _ _ _ _ E), (firstn_S2 _ _ _ _ G), sigs_snoc by (destruct DR as [LG _]; rewrite !firstn_length; lia).
  rewrite answers_snoc, IH by (auto; lia). unfold rsp. rewrite (firstn_S2 _ _ _ _ E), proj_app, responses_app, app_length. cbn [proj map].
  rewrite resp1. cbn [mc_sig mi_resp]. apply Nat.ltb_lt in I. rewrite I. cbn [andb]. destruct (o_resp (snd (t i))); auto.
Qed.
Lemma answers_none : forall T i, (n <= i)%nat -> answers i (mc_sigs n (firstn T ts) (firstn T gs)) = 0%nat.
Proof.
  intros T i I. unfold answers, mc_sigs. induction (combine (firstn T ts) (firstn T gs)) as [|x l IH]; auto. cbn [map filter mc_sig mi_resp].
  apply Nat.ltb_ge in I. rewrite I. cbn [andb]. auto.
Qed.
Lemma sigs_prefix : forall a x b T, (T <= length ts)%nat -> mc_sigs n (firstn T ts) (firstn T gs) = a ++ x :: b ->
  (length a < T)%nat /\ a = mc_sigs n (firstn (length a) ts) (firstn (length a) gs) /\
  exists t g, nth_error ts (length a) = Some t /\ nth_error gs (length a) = Some g /\ x = mc_sig n t g.
Proof.
  intros a x b T. revert b. induction T as [|T IH]; intros b L E; [destruct a; discriminate E|].
  destruct (nth_error ts T) as [t|] eqn:Et; [|apply nth_error_None in Et; lia]. destruct (gs_at _ _ Et) as (g & G).
  rewrite (firstn_S2 _ _ _ _ Et), (firstn_S2 _ _ _ _ G), sigs_snoc in E by (destruct DR as [LG _]; rewrite !firstn_length; lia).
  destruct b as [|y b] using rev_ind.
  - apply app_inj_tail in E. destruct E as [E1 E2]. 
    assert (LA : length a = T).
    { rewrite <- E1. unfold mc_sigs. rewrite map_length, combine_length, !firstn_length. destruct DR as [LG _]. lia. }
    rewrite LA. split; [lia|]. split; auto. exists t, g. auto.
  - clear IHb. rewrite app_comm_cons, app_assoc in E. apply app_inj_tail in E. destruct E as [E1 E2].
    destruct (IH b ltac:(lia) E1) as (X1 & X2 & X3). split; [lia|]. auto.
Qed.
Theorem driven_released : txs_ok n (map fst M) -> released n M ts.
Proof.
  intros OK. constructor.
  - intros i I. destruct (sent_acc (length ts) i (le_n _) I) as [_ E]. rewrite firstn_all in E. rewrite E.
    exists (map m_req (skipn (acc ts i (length ts)) (of_cache i M))). rewrite <- map_app, firstn_skipn. auto.
  - intros ts1 t ts2 i x E I EN NX i' j' x' I' NX' LO.
    set (T := length ts1).
    assert (ET : nth_error ts T = Some t) by (rewrite E, nth_error_app2, Nat.sub_diag; auto).
    assert (F1 : firstn T ts = ts1) by (rewrite E; unfold T; rewrite firstn_app, Nat.sub_diag, firstn_all; cbn [firstn]; apply app_nil_r).
    assert (LT : (T < length ts)%nat) by (apply nth_error_Some; congruence).
    destruct (gs_at _ _ ET) as (g & G). pose proof (dr_at T t g i ET G I) as D.
    destruct (sent_acc T i ltac:(lia) I) as [SA _].
    destruct (mc_sends (map fst M) (mst T) (mc_sig n t g) i) as [o|] eqn:MS; [|congruence].
    assert (EO : o = m_ord x).
    { unfold mc_sends in MS. rewrite src_of_map, nth_error_map, SA in MS. unfold acc in MS. rewrite F1, NX in MS. cbn [option_map] in MS.
      destruct (_ && _ && _); [congruence | discriminate MS]. }
    subst o. rewrite <- F1. change (length (responses (proj i' (firstn T ts)))) with (rsp ts i' T). rewrite <- answers_rsp by (auto; lia).
    eapply (order_barrier n (map fst M) OK _ (mc_sig n t g) i (m_ord x)); eauto.
    + intros a y b EA k. destruct (sigs_prefix _ _ _ _ (Nat.lt_le_incl _ _ LT) EA) as (LA & EQ & ta & ga & Eta & Ega & ->). split.
      * cbn [mc_sig mi_resp]. intros H. apply andb_prop in H. destruct H as [H _]. apply Nat.ltb_lt. auto.
      * assert (EQ2 : a ++ [mc_sig n ta ga] = mc_sigs n (firstn (S (length a)) ts) (firstn (S (length a)) gs)).
        { rewrite (firstn_S2 _ _ _ _ Eta), (firstn_S2 _ _ _ _ Ega), sigs_snoc by (destruct DR as [LG _]; rewrite !firstn_length; lia). congruence. }
        rewrite EQ2. destruct (Nat.lt_ge_cases k n) as [K|K]; [|rewrite answers_none; auto; lia].
        rewrite answers_rsp by (auto; lia). fold (mst (S (length a))). destruct (sent_acc (S (length a)) k ltac:(lia) K) as [-> _].
        apply (rsp_acc p sz n W s0 m0 ts m rq rs CL MM); auto.
    + rewrite src_of_map, nth_error_map, NX'. auto.
Qed.
End D.

(** *** Checking race freedom *)
Definition words_of (p : params) (r : creq) : list N :=
  let w0 := word_num (cq_addr r) in
  map (fun d => w0 + N.of_nat d) (seq 0 (S (N.to_nat (word_num (cq_addr r + req_bytes p r - 1) - w0)))).
Lemma words_of_ok : forall p r k, touches p r k -> In k (words_of p r).
Proof.
  intros p r k [[_ H] | [_ ->]]; unfold words_of; apply in_map_iff.
  - exists (N.to_nat (k - word_num (cq_addr r))). split; [|apply in_seq]; lia.
  - exists 0%nat. split; [|apply in_seq]; lia.
Qed.
Definition race_freeb (p : params) (z : nat -> N * N) (n : nat) (k : N) (M : list msg) : bool :=
  let os := nodup N.eq_dec (map m_ord M) in
  forallb (fun o => forallb (fun i => negb (ownsb (sized p z i) k M o i) || freeb p z n k M o i) (seq 0 n)) os &&
  forallb (fun i => let P := of_cache i M in
    forallb (fun j => match nth_error P j with
      | Some x => negb (touchesb p (m_req x) k) ||
          existsb (fun a => absentb (sized p z i) k (map m_req (firstn a P)) &&
            forallb (fun o => negb ((m_ord (nth a P x) <=? o) && (o <=? m_ord x)) || freeb p z n k M o i) os) (seq 0 (S j))
      | None => true end) (seq 0 (length P))) (seq 0 n).
Lemma race_freeb_ok : forall p z n k M, race_freeb p z n k M = true -> race_free p z n k M.
Proof.
  intros p z n k M H. unfold race_freeb in H. apply andb_prop in H. destruct H as [H1 H2]. rewrite forallb_forall in H1, H2. constructor.
  - intros o i O I OW. apply (nodup_In N.eq_dec) in O. specialize (H1 o O). rewrite forallb_forall in H1. specialize (H1 i ltac:(apply in_seq; lia)).
    apply ownsb_ok in OW. rewrite OW in H1. apply freeb_ok. auto.
  - intros i A x B I E TC. specialize (H2 i ltac:(apply in_seq; lia)). cbv zeta in H2. rewrite forallb_forall in H2.
    specialize (H2 (length A) ltac:(apply in_seq; rewrite E, app_length; cbn [length]; lia)).
    assert (NX : nth_error (of_cache i M) (length A) = Some x) by (rewrite E, nth_error_app2, Nat.sub_diag; auto).
    rewrite NX in H2. apply touchesb_ok in TC. rewrite TC in H2. cbn [negb orb] in H2. apply existsb_exists in H2.
    destruct H2 as (a & SA & H2). apply in_seq in SA. apply andb_prop in H2. destruct H2 as [AB FR].
    exists (firstn a A), (skipn a A). rewrite firstn_skipn. split; auto.
    rewrite E, firstn_app in AB. replace (a - length A)%nat with 0%nat in AB by lia. cbn [firstn] in AB. rewrite app_nil_r in AB.
    split; [apply absentb_ok; auto|]. intros o O [L1 L2]. rewrite forallb_forall in FR. apply (nodup_In N.eq_dec) in O. specialize (FR o O).
    assert (HD : nth a (of_cache i M) x = hd x (skipn a A)).
    { rewrite E. destruct (Nat.eq_dec a (length A)) as [->|NE].
      - rewrite app_nth2, Nat.sub_diag, skipn_all by lia. auto.
      - rewrite app_nth1 by lia. rewrite <- (firstn_skipn a A) at 1. rewrite app_nth2 by (rewrite firstn_length; lia).
        rewrite firstn_length_le, Nat.sub_diag by lia. destruct (skipn a A); auto. }
    rewrite HD in FR. apply N.leb_le in L1, L2. rewrite L1, L2 in FR. apply freeb_ok. auto.
Qed.
Lemma race_free_none : forall p z n k M, (forall x, In x M -> ~ touches p (m_req x) k) -> race_free p z n k M.
Proof.
  intros p z n k M H.
  assert (NO : forall o i, ~ owns (sized p z i) k M o i).
  { intros o i [(x & X & _ & MO) | (l1 & w & l2 & E & WR & _)].
    - apply of_cache_in in X. apply (H x); [apply X | apply mod_touch; auto].
    - assert (I : In w (upto M o i)) by (rewrite E; apply in_or_app; right; left; auto).
      unfold upto in I. apply in_map_iff in I. destruct I as (x & <- & X). apply filter_In in X. destruct X as [X _]. apply of_cache_in in X.
      apply (H x); [apply X | apply mod_touch; left; auto]. }
  constructor.
  - intros o i _ _ O. exfalso. eapply NO; eauto.
  - intros i A x B I E TC. exfalso. apply (H x); auto. assert (X : In x (of_cache i M)) by (rewrite E; apply in_or_app; right; left; auto).
    apply of_cache_in in X. apply X.
Qed.
Definition race_free_all (p : params) (z : nat -> N * N) (n : nat) (M : list msg) : bool :=
  forallb (fun k => race_freeb p z n k M) (nodup N.eq_dec (flat_map (fun x => words_of p (m_req x)) M)).
Lemma race_free_all_ok : forall p z n M, race_free_all p z n M = true -> forall k, race_free p z n k M.
Proof.
  intros p z n M H k. unfold race_free_all in H. rewrite forallb_forall in H.
  destruct (in_dec N.eq_dec k (flat_map (fun x => words_of p (m_req x)) M)) as [I|NI].
  - apply race_freeb_ok. apply H. apply nodup_In. auto.
  - apply race_free_none. intros x X T. apply NI. apply in_flat_map. exists x. split; auto. apply words_of_ok. auto.
Qed.
