(** One request: the memory traffic it makes and the pending words it leaves. *)
From Coq Require Import NArith List Bool Lia.
From Verif Require Import Bits Params Msg Units Tl Mem Spec ParamsProofs UnitProofs ViewDefs ViewOps ViewProofs Traffic MetaProofs PendProofs SysProofs Facts2.
Import ListNotations.
Open Scope N_scope.

Section P.
Variable p : params.
Hypothesis W : wf_params p.

Definition wbs (c : cst) (r : creq) : list mreq :=
  if tl_evict p c r then [evict_req p c r (tl_way p c r)] else [].

Lemma writes_wbs : forall c r q, is_write q = false -> writes (wbs c r ++ [q]) = wbs c r.
Proof.
  intros c r q H. unfold writes, wbs. rewrite filter_app. cbn [filter]. rewrite H. destruct (tl_evict p c r); auto.
Qed.

(** the eviction leaves [c_evict] *)
Lemma wbs_pend : forall c m P M r, cinv p c m -> pendeq p P c ->
  (forall a, a < 2 ^ p_abw p -> trunc 8 (view p c m a) = trunc 8 (M a)) ->
  tl_way p c r < p_assoc p ->
  (tl_evict p c r = true -> te_dty p (ct c (tl_way p c r) (a_idx p (cq_addr r))) <> 0) ->
  wbs_ok p P M (wbs c r) /\ pendeq p (clears p P (wbs c r)) (c_evict p c r) /\
  (length (wbs c r) <= 1)%nat /\
  forall b, In b (wbs c r) -> mq_addr b = line_bytes p * lno p c (a_idx p (cq_addr r)) (tl_way p c r).
Proof.
  intros c m P M r C PE VM Hw NZ. unfold wbs, c_evict. destruct (tl_evict p c r).
  - destruct (evict_wb p W c m P M r C PE VM Hw) as (A1 & A2 & A3); auto.
    cbn [wbs_ok clears fold_left length]. split; auto. split; auto. split; auto. intros b [<- | []]; auto.
  - cbn [wbs_ok clears fold_left length]. split; auto. split; auto. split; auto. intros b [].
Qed.

Lemma lb_pos : 0 < line_bytes p.
Proof. rewrite (line_bytes_pow p W). apply pow2_pos. Qed.
Lemma line_of_mul : forall x, line_of p (line_bytes p * x) = x.
Proof. intros x. unfold line_of. rewrite N.mul_comm. apply N.div_mul. pose proof lb_pos. lia. Qed.
Lemma line_addr_mul : forall a, a < 2 ^ p_abw p -> line_addr p a = line_bytes p * line_of p a.
Proof.
  intros a A. unfold line_addr. rewrite (addr_mul p W), (line_eq p W); auto; [apply a_tag_lt | apply a_idx_lt; auto].
Qed.

Lemma rw_evict : forall c r, uniq p c -> tl_isamo r = false ->
  (tl_evict p c r = true -> tl_hit p c r = false /\ tl_inval p c r = false /\ tl_way p c r = tl_rep p c r /\
     te_dty p (ct c (tl_way p c r) (a_idx p (cq_addr r))) <> 0) /\
  (tl_evict p c r = false -> tl_hit p c r = false -> tl_inval p c r = false -> te_dty p (ct c (tl_way p c r) (a_idx p (cq_addr r))) = 0).
Proof.
  intros c r U NA. unfold tl_evict, tl_way. rewrite NA.
  destruct (tl_hit p c r), (tl_inval p c r); cbn [negb andb]; split; intros H; try discriminate.
  - split; auto. split; auto. split; auto. apply (dirty_nz p). auto.
  - intros _ _. unfold line_dirty in H. cbn [andb] in H. apply negb_false_iff in H. apply N.eqb_eq. exact H.
Qed.

(** *** READ and WRITE *)
Lemma pend_rw : forall c m r d P, cinv p c m -> wf_req p r -> rw_req r = true -> pendeq p P (c_evict p c r) ->
  pendeq p (mark p P r) (fst (tl_fin p c r d)).
Proof.
  intros c m r d P C WF T PE. pose proof (ci_uniq _ _ _ C) as U. destruct (rw_type r T) as (NA & _ & _).
  destruct (meta_rw p W c r d WF T U (ci_rep _ _ _ C)) as (M1 & M2 & M3 & M4 & _).
  destruct (meta_way p W c r U (ci_rep _ _ _ C) NA) as [Hw _].
  destruct (rw_evict c r U NA) as [EV1 EV2].
  pose proof (look_spec p W c r U) as LK.
  set (c' := fst (tl_fin p c r d)) in *. set (i0 := a_idx p (cq_addr r)) in *. set (w0 := tl_way p c r) in *.
  set (c1 := c_evict p c r) in *.
  set (D := if tl_hit p c r then te_dty p (ct c w0 i0) else tl_dirty p c r) in *.
  assert (O1 : forall w i, w <> w0 \/ i <> i0 -> ct c1 w i = ct c w i).
  { intros w i N. unfold c1, c_evict. destruct (tl_evict p c r); auto. apply tset_other; auto. }
  assert (D1 : te_dty p (ct c1 w0 i0) = D).
  { unfold c1, c_evict, D, tl_dirty. destruct (tl_evict p c r) eqn:EV.
    - destruct (EV1 eq_refl) as (-> & _). cbn [ct c_clean]. rewrite tset_same. apply te_clean.
    - destruct (tl_hit p c r); auto. }
  assert (D2 : D = 0 \/ ltag p c1 w0 i0 = a_tag p (cq_addr r)).
  { rewrite <- D1. unfold c1, c_evict. destruct (tl_evict p c r) eqn:EV.
    - left. cbn [ct c_clean]. rewrite tset_same. apply te_clean.
    - destruct (tl_hit p c r) eqn:HI; [|destruct (tl_inval p c r) eqn:VI].
      + right. unfold w0, tl_way. unfold tl_isamo. rewrite NA, HI. inversion LK; auto.
      + right. unfold w0, tl_way. unfold tl_isamo. rewrite NA, HI, VI. inversion LK; auto.
      + left. apply EV2; auto. }
  assert (DA : forall a, dirty_at p c1 w0 a = (a_idx p a =? i0) && (a_tag p a =? a_tag p (cq_addr r)) && N.testbit D (a_off p a / 4) \/ a_idx p a <> i0).
  { intros a. destruct (N.eqb_spec (a_idx p a) i0) as [EI|EI]; [left|right; auto]. cbn [andb].
    unfold dirty_at, ldty. rewrite EI, D1. destruct D2 as [-> | ->].
    - rewrite N.bits_0, !andb_false_r. auto.
    - rewrite N.eqb_sym. auto. }
  intros a A.
  assert (MK : mark p P r (word_num a) = P (word_num a) || ((cq_type r =? T_WRITE) &&
      ((word_num (cq_addr r) <=? word_num a) && (word_num a <=? word_num (cq_addr r + req_bytes p r - 1))))).
  { unfold mark. destruct (cq_type r =? T_WRITE); auto. rewrite orb_false_r. auto. }
  rewrite MK, PE by auto. clear MK.
  assert (MW : (cq_type r =? T_WRITE) &&
      ((word_num (cq_addr r) <=? word_num a) && (word_num a <=? word_num (cq_addr r + req_bytes p r - 1))) =
      (a_tag p a =? a_tag p (cq_addr r)) && (a_idx p a =? i0) && ((cq_type r =? T_WRITE) &&
      ((a_off p (cq_addr r) / 4 <=? a_off p a / 4) && (a_off p a / 4 <=? (a_off p (cq_addr r) + req_bytes p r - 1) / 4)))).
  { destruct (N.eqb_spec (cq_type r) T_WRITE) as [TW|TW]; cbn [andb].
    - apply (mark_word p W); auto. destruct (rw_cases p r WF T) as [(X & _)|X]; auto. rewrite X in TW. discriminate.
    - rewrite andb_false_r. auto. }
  rewrite MW. clear MW.
  set (K := (cq_type r =? T_WRITE) && ((a_off p (cq_addr r) / 4 <=? a_off p a / 4) && (a_off p a / 4 <=? (a_off p (cq_addr r) + req_bytes p r - 1) / 4))).
  assert (DT : N.testbit (te_dty p (ct c' w0 i0)) (a_off p a / 4) = N.testbit D (a_off p a / 4) || K).
  { rewrite M4. unfold K. destruct (N.eqb_spec (cq_type r) T_WRITE) as [TW|TW]; cbn [andb]; [|rewrite orb_false_r; auto].
    apply (set_dirty_exact p W); auto. destruct (rw_cases p r WF T) as [(X & _)|X]; auto. rewrite X in TW. discriminate. }
  assert (F : forall w, w < p_assoc p -> dirty_at p c' w a =
     dirty_at p c1 w a || ((w =? w0) && ((a_tag p a =? a_tag p (cq_addr r)) && (a_idx p a =? i0) && K))).
  { intros w Hw'. destruct (same_line w (a_idx p a) w0 i0) as [(E1 & E2) | N].
    - subst w. rewrite N.eqb_refl. destruct (DA a) as [-> | N]; [|contradiction].
      unfold dirty_at, ldty. rewrite E2, M3, DT, !N.eqb_refl, (N.eqb_sym (a_tag p (cq_addr r))).
      destruct (a_tag p a =? a_tag p (cq_addr r)), (N.testbit D (a_off p a / 4)), K; auto.
    - unfold dirty_at at 1. unfold ltag, ldty. rewrite M1 by auto. rewrite <- (O1 w (a_idx p a)) by auto.
      fold (ldty p c1 w (a_idx p a) (a_off p a / 4)). fold (ltag p c1 w (a_idx p a)). fold (dirty_at p c1 w a).
      destruct N as [N | N]; apply N.eqb_neq in N; rewrite N; rewrite ?andb_false_r; cbn [andb]; rewrite ?andb_false_r, orb_false_r; auto. }
  apply eq_true_iff_eq. rewrite orb_true_iff, !dset_true. split.
  - intros [(w & Hw' & X) | X].
    + exists w. split; auto. rewrite F by auto. rewrite X. auto.
    + exists w0. split; auto. rewrite F by auto. rewrite N.eqb_refl, X. apply orb_true_r.
  - intros (w & Hw' & X). rewrite F in X by auto. apply orb_true_iff in X. destruct X as [X | X].
    + left. exists w. auto.
    + right. apply andb_prop in X. apply X.
Qed.

Theorem traf_rw : forall c m P L M r d, cinv p c m -> pendeq p P c -> lruinv p L c ->
  (forall a, a < 2 ^ p_abw p -> trunc 8 (view p c m a) = trunc 8 (M a)) -> wf_req p r -> rw_req r = true ->
  req_traffic p P L M r (tl_reqs p c r) /\
  pendeq p (mark p (clears p P (writes (tl_reqs p c r))) r) (fst (tl_fin p c r d)).
Proof.
  intros c m P L M r d C PE LI VM WF T. pose proof (ci_uniq _ _ _ C) as U. pose proof (rw_type r T) as (NA & NI & NF).
  pose proof WF as (HA & _).
  destruct (meta_way p W c r U (ci_rep _ _ _ C) NA) as [Hw _].
  destruct (rw_evict c r U NA) as [EV1 EV2].
  assert (RQ : tl_reqs p c r = if tl_hit p c r then [] else wbs c r ++ [refill_req p c r]).
  { unfold tl_reqs, tl_isamo. rewrite NI, NF, NA. auto. }
  pose proof (in_lru p W L c r LI U (ci_rep _ _ _ C) HA) as IL.
  assert (EVN : tl_evict p c r = true -> te_dty p (ct c (tl_way p c r) (a_idx p (cq_addr r))) <> 0).
  { intros E. apply EV1; auto. }
  destruct (wbs_pend c m P M r C PE VM Hw EVN) as (B1 & B2 & B3 & B4).
  pose proof (look_spec p W c r U) as LK.
  unfold req_traffic. rewrite T, RQ, (line_set p W) by auto.
  destruct (tl_hit p c r) eqn:HI.
  - destruct (in_dec N.eq_dec (line_of p (cq_addr r)) (L (a_idx p (cq_addr r)))) as [I|I]; [|exfalso; apply I, IL; auto].
    split; auto. cbn [writes filter clears fold_left]. eapply pend_rw; eauto.
    unfold c_evict. destruct (tl_evict p c r) eqn:EV; auto. destruct (EV1 eq_refl) as (X & _). discriminate.
  - destruct (in_dec N.eq_dec (line_of p (cq_addr r)) (L (a_idx p (cq_addr r)))) as [I|I]; [exfalso; apply IL in I; discriminate|].
    rewrite writes_wbs by reflexivity. split; [|eapply pend_rw; eauto].
    exists (wbs c r), (refill_req p c r). split; auto. split; auto. split; auto. split.
    + intros b IN. pose proof (B4 b IN) as AB. rewrite AB, line_of_mul. unfold lno.
      pose proof (a_idx_lt p W (cq_addr r)) as Hi. pose proof (nb_pos p W). split.
      * rewrite N.add_comm, N.mod_add by lia. apply N.mod_small; auto.
      * rewrite (line_eq p W) by auto. intro E. apply (lno_inj p W) in E.
        unfold wbs in IN. destruct (tl_evict p c r) eqn:EV; [|destruct IN].
        destruct (EV1 eq_refl) as (_ & VI & _ & NZ). rewrite VI in LK. inversion LK as [| |N0 N1].
        apply (N0 (tl_way p c r)); auto. unfold present. apply N.eqb_neq in NZ. rewrite NZ. apply orb_true_r.
    + unfold refill_req. cbn [mq_type mq_opq mq_addr mq_len]. rewrite line_addr_mul; auto.
Qed.

(** *** AMO *)
Theorem traf_amo : forall c m P L M r d, cinv p c m -> pendeq p P c ->
  (forall a, a < 2 ^ p_abw p -> trunc 8 (view p c m a) = trunc 8 (M a)) -> wf_req p r -> wf_amo p r ->
  req_traffic p P L M r (tl_reqs p c r) /\
  pendeq p (mark p (clears p P (writes (tl_reqs p c r))) r) (fst (tl_fin p c r d)).
Proof.
  intros c m P L M r d C PE VM WF WA. pose proof (ci_uniq _ _ _ C) as U.
  destruct (amo_type p r WA) as (NR & IA & NI & NF & _ & NW). pose proof WF as (HA & _).
  assert (Hi : a_idx p (cq_addr r) < nblocks p) by (apply a_idx_lt; auto).
  assert (RQ : tl_reqs p c r = wbs c r ++ [amo_req p c r]).
  { unfold tl_reqs, tl_isamo. rewrite NI, NF, IA. auto. }
  pose proof (look_spec p W c r U) as LK.
  assert (WY : tl_way p c r = tl_hw p c r) by (unfold tl_way, tl_isamo; rewrite IA; auto).
  assert (EVE : tl_evict p c r = line_dirty p true (ct c (tl_hw p c r) (a_idx p (cq_addr r))) && (tl_hit p c r || tl_inval p c r)).
  { unfold tl_evict, tl_isamo. rewrite IA. auto. }
  assert (Hw : tl_way p c r < p_assoc p).
  { rewrite WY. destruct (tl_hit p c r), (tl_inval p c r); inversion LK; auto. destruct (wf_assoc p W) as [-> | ->]; lia. }
  assert (EVN : tl_evict p c r = true -> te_dty p (ct c (tl_way p c r) (a_idx p (cq_addr r))) <> 0).
  { rewrite EVE, WY. intros E. apply andb_prop in E. apply (dirty_nz p). apply E. }
  destruct (wbs_pend c m P M r C PE VM Hw EVN) as (B1 & B2 & B3 & B4).
  destruct (meta_amo p c r d WA) as (M1 & M2 & _).
  set (c' := fst (tl_fin p c r d)) in *. set (i0 := a_idx p (cq_addr r)) in *. set (c1 := c_evict p c r) in *.
  assert (O1 : forall w i, w <> tl_hw p c r \/ i <> i0 -> ct c1 w i = ct c w i).
  { intros w i N. unfold c1, c_evict. destruct (tl_evict p c r); auto. apply tset_other. rewrite WY. auto. }
  assert (Z : tl_hit p c r || tl_inval p c r = true -> te_dty p (ct c1 (tl_hw p c r) i0) = 0 /\ te_dty p (ct c' (tl_hw p c r) i0) = 0).
  { intros E. rewrite E in M2, EVE. split; [|apply M2]. rewrite andb_true_r in EVE. unfold c1, c_evict. rewrite EVE, WY.
    unfold line_dirty. cbn [andb]. fold i0. destruct (N.eqb_spec (te_dty p (ct c (tl_hw p c r) i0)) 0) as [X|X]; cbn [negb]; auto.
    cbn [ct c_clean]. rewrite tset_same. apply te_clean. }
  assert (DE : forall w a, w < p_assoc p -> dirty_at p c' w a = dirty_at p c1 w a).
  { intros w a Hw'. unfold dirty_at, ltag, ldty. destruct (same_line w (a_idx p a) (tl_hw p c r) i0) as [(E1 & E2) | N].
    - destruct (tl_hit p c r || tl_inval p c r) eqn:HI.
      + destruct (Z eq_refl) as [Z1 Z2]. rewrite E1, E2, Z1, Z2, N.bits_0, !andb_false_r. auto.
      + rewrite andb_false_r in EVE. unfold c1, c_evict. rewrite EVE, M2. cbn [ct]. auto.
    - rewrite M1, O1 by auto. auto. }
  assert (TW : is_write (amo_req p c r) = false) by exact NW.
  assert (MK : mark p (clears p P (wbs c r)) r = clears p P (wbs c r)) by (unfold mark; rewrite NW; auto).
  unfold req_traffic. rewrite NR, IA, RQ, writes_wbs by auto. rewrite MK. split.
  2: { intros a A. rewrite B2 by auto. symmetry. apply dset_eq. auto. }
  exists (wbs c r), (amo_req p c r). split; auto. split; auto. split; auto.
  assert (TG : forall b, In b (wbs c r) -> ltag p c (tl_way p c r) i0 = a_tag p (cq_addr r)).
  { intros b IN. unfold wbs in IN. destruct (tl_evict p c r); [|destruct IN]. symmetry in EVE. apply andb_prop in EVE.
    destruct EVE as [_ E]. rewrite WY. destruct (tl_hit p c r), (tl_inval p c r); try discriminate; inversion LK; auto. }
  split; [|split].
  - intros b IN. rewrite (B4 b IN). unfold lno. rewrite (TG b IN), (line_eq p W) by auto. auto.
  - intros k K. assert (A : k * 4 < 2 ^ p_abw p).
    { pose proof (N.div_mod' (k * 4) (line_bytes p)) as DM. pose proof (N.mod_lt (k * 4) (line_bytes p) ltac:(pose proof lb_pos; lia)) as ML.
      rewrite K in DM. pose proof (a_tag_lt p (cq_addr r)) as TL.
      destruct (addr_add p W (line_addr p (cq_addr r)) (k * 4 mod line_bytes p)) as (X & _).
      - apply mk_addr_lt; auto.
      - unfold line_addr. rewrite base_off0. rewrite (line_bytes_pow p W) in *. lia.
      - rewrite line_addr_mul in X by auto. lia. }
    assert (WN : word_num (k * 4) = k) by (unfold word_num; apply N.div_mul; lia).
    rewrite <- WN, B2 by auto.
    assert (LE : line_of p (k * 4) = line_of p (cq_addr r)) by exact K.
    rewrite !(line_eq p W) in LE by auto. apply (lno_inj2 p W) in LE; [|apply a_idx_lt; auto|auto]. destruct LE as [LT LX].
    apply not_true_iff_false. intro DS. apply dset_true in DS. destruct DS as (w & Hw' & DD).
    apply dirty_at_inv in DD. destruct DD as [D1 D2]. rewrite LX in D1, D2. fold i0 in D1, D2. rewrite LT in D1.
    assert (PC : present p c w i0 = true /\ ltag p c w i0 = a_tag p (cq_addr r)).
    { destruct (same_line w i0 (tl_hw p c r) i0) as [(E1 & _) | N].
      - subst w. destruct (tl_hit p c r || tl_inval p c r) eqn:HI.
        + destruct (Z eq_refl) as [Z1 _]. unfold ldty in D2. rewrite Z1, N.bits_0 in D2. discriminate.
        + rewrite andb_false_r in EVE. unfold c1, c_evict in D1, D2. rewrite EVE in D1, D2. split; auto. eapply ldty_present; eauto.
      - unfold ltag, ldty in D1, D2. rewrite O1 in D1, D2 by auto. split; auto. eapply ldty_present. unfold ldty. eauto. }
    destruct PC as [PC1 PC2].
    destruct (tl_hit p c r || tl_inval p c r) eqn:HI.
    + assert (w = tl_hw p c r).
      { destruct (tl_hit p c r), (tl_inval p c r); try discriminate;
        inversion LK as [w1 L1 L2 L3 L4 L5 | w1 L1 L2 L3 L4 L5 | L1 L2]; apply (U w (tl_hw p c r) i0); auto using lval_present; try congruence.
        unfold present. apply N.eqb_neq in L3. fold i0 in L3. rewrite L3. apply orb_true_r. }
      subst w. destruct (Z eq_refl) as [Z1 _]. unfold ldty in D2. rewrite Z1, N.bits_0 in D2. discriminate.
    + apply orb_false_iff in HI. destruct HI as [H1 H2]. rewrite H1, H2 in LK. inversion LK as [| |N0 N1]. apply (N0 w); auto.
  - unfold amo_req. cbn [mq_type mq_opq mq_addr mq_len mq_data]. destruct WA as (_ & _ & DL). split; auto. split; auto. split.
    { cbn [off_len fst]. apply mk_addr_parts; auto. }
    split.
    { unfold off_len. cbn [snd]. destruct (N.eqb_spec (p_dbw p) 32); auto. destruct DL; [contradiction | auto]. }
    { unfold tl_data, tl_isamo. rewrite IA. unfold replicator, rep_sel. auto. }
Qed.

(** *** FLUSH *)
Lemma wbs_ok_view : forall qs P M M', (forall a, a < 2 ^ p_abw p -> trunc 8 (M a) = trunc 8 (M' a)) ->
  wbs_ok p P M qs -> wbs_ok p P M' qs.
Proof.
  induction qs as [|q qs IH]; intros P M M' E H; cbn [wbs_ok] in *; auto. destruct H as [[h1 h2 h3 h4 h5 h6] H]. split; [|eapply IH; eauto].
  constructor; auto. intros o O B. rewrite <- E; auto.
  destruct h2 as [A1 A2]. pose proof (addr_add p W (mq_addr q) o A2) as X. destruct X as (X & _); auto.
  rewrite a_off_mod. rewrite (line_bytes_pow p W) in A1, O. rewrite A1. lia.
Qed.

Lemma flush_pend : forall c opq k m P M, N.of_nat k <= total_lines p -> cinv p (c_flush p c (N.of_nat k)) m ->
  pendeq p P (c_flush p c (N.of_nat k)) ->
  (forall a, a < 2 ^ p_abw p -> trunc 8 (view p (c_flush p c (N.of_nat k)) m a) = trunc 8 (M a)) ->
  wbs_ok p P M (flush_reqs p c opq k) /\ pendeq p (clears p P (flush_reqs p c opq k)) (c_flush p c 0) /\
  writes (flush_reqs p c opq k) = flush_reqs p c opq k.
Proof.
  intros c opq k. induction k as [|k IH]; intros m P M K C PE VM; cbn [flush_reqs].
  - split; [exact I|]. split; auto.
  - set (kk := N.of_nat k) in *. replace (N.of_nat (S k)) with (kk + 1) in * by lia.
    assert (Hk : kk < total_lines p) by lia.
    set (w := lway p kk). set (i := lidx p kk).
    assert (Hw : w < p_assoc p) by (apply lway_lt; auto).
    assert (Hi : i < nblocks p) by (apply lidx_lt; auto).
    assert (E1 : ct (c_flush p c (kk + 1)) w i = ct c w i).
    { cbn [ct c_flush]. unfold w, i. rewrite lnum_l by auto.
      destruct (N.leb_spec (kk + 1) kk); try lia. rewrite andb_false_r. auto. }
    assert (E2 : ct (c_flush p c kk) w i = ent_clean p (ct c w i)).
    { cbn [ct c_flush]. unfold inrange. destruct (N.ltb_spec w (p_assoc p)), (N.ltb_spec i (nblocks p)); try lia.
      unfold w, i. rewrite lnum_l by auto. destruct (N.leb_spec kk kk); try lia. cbn [andb]. auto. }
    assert (E3 : forall w' i', w' < p_assoc p -> i' < nblocks p -> ct (c_clean p (c_flush p c (kk + 1)) w i) w' i' = ct (c_flush p c kk) w' i').
    { intros w' i' Hw' Hi'. unfold c_clean. cbn [ct]. destruct (same_line w' i' w i) as [(-> & ->) | N].
      - rewrite tset_same, E2. f_equal. exact E1.
      - rewrite tset_other by auto. symmetry. apply (lu_ct _ _ _ _ _ (c_flush_lupd p W c kk (ci_rep _ _ _ C) Hk)); auto. }
    assert (DE : forall a, dset p (c_flush p c kk) a = dset p (c_clean p (c_flush p c (kk + 1)) w i) a).
    { intros a. apply dset_eq. intros w' Hw'. unfold dirty_at, ltag, ldty. rewrite E3 by (auto; apply a_idx_lt; auto). auto. }
    set (q := flush_req p c opq kk).
    assert (QE : q = mkMReq T_WRITE opq (line_addr p (mk_addr p (ltag p (c_flush p c (kk + 1)) w i) i 0)) 0
        (te_dty p (ct (c_flush p c (kk + 1)) w i)) (cd (c_flush p c (kk + 1)) (indexer p i w))).
    { unfold q, flush_req, ltag. fold w i. rewrite E1. auto. }
    assert (ST : forall m1, (forall x, x < 2 ^ p_abw p ->
       m1 x = if (a_tag p x =? ltag p c w i) && (a_idx p x =? i) && ldty p c w i (a_off p x / 4)
            then lbyte p c w i (a_off p x) else m x) ->
       cinv p (c_flush p c kk) m1 /\ forall a, a < 2 ^ p_abw p -> view p (c_flush p c kk) m1 a = view p (c_flush p c (kk + 1)) m a).
    { intros m1 M1. destruct (te_clean p (ct c w i)) as (T1 & T2 & T3).
      apply (op_wb p W (c_flush p c (kk + 1)) (c_flush p c kk) m w i C Hw Hi).
      - apply c_flush_lupd; auto. exact (ci_rep _ _ _ C).
      - unfold lval. rewrite E1, E2. auto.
      - rewrite E2. auto.
      - unfold ltag. rewrite E1, E2. auto.
      - auto.
      - intros x X. rewrite M1 by auto. unfold ltag, ldty. rewrite E1. auto. }
    destruct (line_dirty p true (ct c w i)) eqn:LD; cbn [app].
    + destruct (pend_wb p W (c_flush p c (kk + 1)) m P M w i opq C PE VM Hw Hi) as (B1 & B2 & _).
      { rewrite E1. apply (dirty_nz p). auto. }
      rewrite <- QE in B1, B2.
      destruct (mem_exec p m q) as [m1 x1] eqn:ME.
      destruct (ST m1) as [C1 V1].
      { intros x X. change m1 with (fst (m1, x1)). rewrite <- ME. unfold q, flush_req, mem_exec. cbn [mq_type mq_addr mq_mask mq_data].
        change (T_WRITE =? T_READ) with false. change (T_WRITE =? T_WRITE) with true. cbn [fst].
        fold w i. rewrite (line_addr_base p W) by (auto; apply te_tag_lt). rewrite (wb_mem p W) by (auto; apply te_tag_lt). auto. }
      destruct (IH m1 (clear p P q) M ltac:(lia) C1) as (A1 & A2 & A3).
      * intros a A. rewrite DE. apply B2; auto.
      * intros a A. rewrite V1 by auto. auto.
      * split; [cbn [wbs_ok]; auto|]. split; auto. change (writes (q :: flush_reqs p c opq k)) with (q :: writes (flush_reqs p c opq k)). rewrite A3. auto.
    + destruct (ST m) as [C1 V1].
      { intros x X. unfold line_dirty in LD. cbn [andb] in LD. apply negb_false_iff in LD. apply N.eqb_eq in LD.
        unfold ldty. rewrite LD, N.bits_0, andb_false_r. auto. }
      apply (IH m P M ltac:(lia) C1).
      * intros a A. rewrite PE by auto. symmetry. apply dset_eq. intros w' Hw'.
        unfold dirty_at, ltag, ldty. destruct (same_line w' (a_idx p a) w i) as [(-> & EI) | N].
        -- rewrite EI, E1, E2. unfold line_dirty in LD. cbn [andb] in LD. apply negb_false_iff in LD. apply N.eqb_eq in LD.
           destruct (te_clean p (ct c w i)) as (_ & -> & _). rewrite LD, N.bits_0, !andb_false_r. auto.
        -- rewrite (lu_ct _ _ _ _ _ (c_flush_lupd p W c kk (ci_rep _ _ _ C) Hk)) by (auto; apply a_idx_lt; auto). auto.
      * intros a A. rewrite V1 by auto. auto.
Qed.

Theorem traf_flush : forall c m P L M r d, cinv p c m -> pendeq p P c ->
  (forall a, a < 2 ^ p_abw p -> trunc 8 (view p c m a) = trunc 8 (M a)) -> cq_type r = T_FLUSH ->
  req_traffic p P L M r (tl_reqs p c r) /\
  pendeq p (mark p (clears p P (writes (tl_reqs p c r))) r) (fst (tl_fin p c r d)).
Proof.
  intros c m P L M r d C PE VM T.
  assert (RQ : tl_reqs p c r = flush_reqs p c (cq_opq r) (N.to_nat (total_lines p))).
  { unfold tl_reqs. rewrite T. auto. }
  assert (TOT : N.of_nat (N.to_nat (total_lines p)) = total_lines p) by apply N2Nat.id.
  assert (E0 : forall w i, w < p_assoc p -> i < nblocks p -> ct (c_flush p c (total_lines p)) w i = ct c w i).
  { intros w i Hw Hi. cbn [ct c_flush]. pose proof (lnum_lt p W w i Hw Hi).
    destruct (N.leb_spec (total_lines p) (lnum p w i)); try lia. rewrite andb_false_r. auto. }
  destruct (flush_pend c (cq_opq r) (N.to_nat (total_lines p)) m P M) as (A1 & A2 & A3); rewrite ?TOT; try lia.
  - apply cinv_ext with c; auto. exact (ci_rep _ _ _ C).
  - intros a A. rewrite PE by auto. symmetry. apply dset_eq. intros w Hw. unfold dirty_at, ltag, ldty. rewrite E0 by (auto; apply a_idx_lt; auto). auto.
  - intros a A. rewrite (view_ext p W c (c_flush p c (total_lines p)) m) by auto. auto.
  - rewrite <- RQ in *. rewrite A3.
    assert (MK : mark p (clears p P (tl_reqs p c r)) r = clears p P (tl_reqs p c r)) by (unfold mark; rewrite T; auto).
    assert (Z : forall a, dset p (c_flush p c 0) a = false).
    { intros a. apply not_true_iff_false. intro DS. apply dset_true in DS. destruct DS as (w & Hw & D). apply dirty_at_inv in D. destruct D as [_ D].
      unfold ldty in D. cbn [ct c_flush] in D. pose proof (a_idx_lt p W a) as Hi. unfold inrange in D. apply N.ltb_lt in Hw, Hi. rewrite Hw, Hi in D.
      cbn [andb] in D. destruct (N.leb_spec 0 (lnum p w (a_idx p a))); [|lia].
      destruct (te_clean p (ct c w (a_idx p a))) as (_ & E & _). rewrite E, N.bits_0 in D. discriminate. }
    rewrite MK. unfold req_traffic, rw_req. rewrite T.
    change ((T_FLUSH =? T_READ) || (T_FLUSH =? T_WRITE)) with false. change (is_amo T_FLUSH) with false. change (T_FLUSH =? T_FLUSH) with true. cbn iota.
    split; [split; auto|].
    + intros k K. assert (WN : word_num (k * 4) = k) by (unfold word_num; apply N.div_mul; lia).
      rewrite <- WN, A2 by auto. apply Z.
    + intros a A. rewrite A2 by auto. symmetry. apply dset_eq. intros w Hw. unfold dirty_at, ltag, ldty, tl_fin. rewrite T.
      change (T_FLUSH =? T_INV) with false. change (T_FLUSH =? T_FLUSH) with true. cbn [fst ct c_flush]. unfold tmap.
      destruct (N.leb_spec 0 (lnum p w (a_idx p a))); try lia. rewrite andb_true_r. auto.
Qed.

Theorem traf_inv : forall c m P L M r d, cinv p c m -> pendeq p P c -> cq_type r = T_INV ->
  req_traffic p P L M r (tl_reqs p c r) /\
  pendeq p (mark p (clears p P (writes (tl_reqs p c r))) r) (fst (tl_fin p c r d)).
Proof.
  intros c m P L M r d C PE T. unfold tl_reqs, tl_fin, req_traffic, mark, rw_req. rewrite T.
  change (T_INV =? T_INV) with true. change (T_INV =? T_WRITE) with false. change (is_amo T_INV) with false.
  change ((T_INV =? T_READ) || false) with false. change (T_INV =? T_FLUSH) with false. cbn [fst writes filter clears fold_left].
  split; auto. eapply pend_ext; eauto. intros a w Hw. unfold dirty_at, ltag, ldty. cbn [ct].
  pose proof (a_idx_lt p W a). rewrite (ct_tmap p) by auto.
  destruct (te_inv p (ct c w (a_idx p a))) as (_ & E1 & E2). rewrite E1, E2. auto.
Qed.

Theorem traf_step : forall c m P L M r d, cinv p c m -> pendeq p P c -> lruinv p L c ->
  (forall a, a < 2 ^ p_abw p -> trunc 8 (view p c m a) = trunc 8 (M a)) -> wf_req p r ->
  req_traffic p P L M r (tl_reqs p c r) /\
  pendeq p (mark p (clears p P (writes (tl_reqs p c r))) r) (fst (tl_fin p c r d)).
Proof.
  intros c m P L M r d C PE LI VM WF. destruct (rw_req r) eqn:T; [eapply traf_rw; eauto|].
  destruct (not_rw p r WF T) as [WA | [TI | TF]]; [eapply traf_amo | eapply traf_inv | eapply traf_flush]; eauto.
Qed.
End P.
