(** A counter protected by a lock (C59): no increment is lost. *)
From Coq Require Import Arith NArith List Bool Lia.
From Verif Require Import Bits Params Msg Units Rtl Mem Spec System Tl ParamsProofs RefineInv RefineProofs
  UnitProofs ViewDefs ViewOps ViewProofs SysProofs SysFacts Traffic MetaProofs PendProofs TrafProofs
  Hide Proto MultiSys MultiProofs MultiFacts MultiMore MultiAmo DynSpec DynProofs DynFacts DynMore AmoAll LockSpec Lock.
Import ListNotations.
Open Scope N_scope.

Lemma sum_zero : forall A (f : A -> N) l, (forall x, In x l -> f x = 0) -> fold_right N.add 0 (map f l) = 0.
Proof. induction l as [|x l IH]; intros H; auto. cbn [map fold_right]. rewrite (H x) by (left; auto). apply IH. intros y Y. apply H. right. auto. Qed.
Lemma sum_app : forall l l', fold_right N.add 0 (l ++ l') = fold_right N.add 0 l + fold_right N.add 0 l'.
Proof. induction l as [|x l IH]; intros; cbn [app fold_right]; [auto|rewrite IH; lia]. Qed.
Lemma total_snoc : forall k n inc ts t, total k n inc (ts ++ [t]) = total k n inc ts + cyc_sum k n (inc (length ts)) t.
Proof.
  intros. unfold total. rewrite app_length. cbn [length]. rewrite seq_app, map_app, sum_app. cbn [seq map fold_right].
  rewrite Nat.add_0_l, nth_error_app2, Nat.sub_diag by lia. cbn [nth_error]. rewrite N.add_0_r. f_equal. f_equal. apply map_ext_in.
  intros T H. apply in_seq in H. rewrite nth_error_app1 by lia. auto.
Qed.
Lemma trunc_addl : forall x y, trunc 32 (trunc 32 x + y) = trunc 32 (x + y).
Proof. intros. rewrite !trunc_mod. apply N.add_mod_idemp_l. discriminate. Qed.
Lemma word4 : forall k j, j < 4 -> word_num (4 * k + j) = k.
Proof. intros. unfold word_num. symmetry. apply N.div_unique with j; auto. Qed.

Section L.
Variable p : params.
Variable sz : nat -> N * N.
Variable n : nat.
Hypothesis W : wf_caches p sz n.
Variables (s0 : nat -> st) (m0 : mem).
Variables (a : N) (G : N -> Prop).
Hypothesis A4 : a mod 4 = 0.
Hypothesis AR : a < 2 ^ p_abw p.
Variable k : N.
Hypothesis GK : G k.
Hypothesis GA : ~ G (word_num a).
Hypothesis HK : k * 4 < 2 ^ p_abw p.
Variable inc : nat -> nat -> N.
Local Ltac li := clear A4 AR HK; lia.

Lemma in_word : 2 <= p_abw p -> forall j, j < 4 -> 4 * k + j < 2 ^ p_abw p.
Proof.
  intros AB j J. replace (2 ^ p_abw p) with (2 ^ (p_abw p - 2) * 4) in * by (change 4 with (2 ^ 2); rewrite <- N.pow_add_r; f_equal; lia).
  set (z := 2 ^ (p_abw p - 2)) in *. clearbody z. clear A4 AR. lia.
Qed.
Lemma abw2 : forall i, (i < n)%nat -> 2 <= p_abw p.
Proof.
  intros i I. pose proof (W i I) as X. pose proof (offw_ge3 (sized p sz i) X) as O. destruct X as [_ _ _ _ _ AB].
  change (p_abw (sized p sz i)) with (p_abw p) in AB. change (offw (sized p sz i)) with (offw p) in *. li.
Qed.
Lemma agree_rd : forall i m m', (i < n)%nat -> agree p (mk k true) m m' -> rd_bytes m (4 * k) 4 = rd_bytes m' (4 * k) 4.
Proof.
  intros i m m' I H. apply rd_ext. intros j J. change (N.of_nat 4) with 4 in J. apply H; [apply in_word; auto; eapply abw2; eauto|].
  unfold mk. rewrite word4, N.eqb_refl by auto. auto.
Qed.

Theorem lock_counter : forall ts m rq rs, clients p sz n s0 ts -> mmem p n m0 no_reqs no_resps ts m rq rs ->
  (forall i, (i < n)%nat -> lock_client p a G (proj i ts)) -> (forall i, (i < n)%nat -> counts_up p a k inc ts i) ->
  rd_bytes (flat_mem p m0 (hist n ts)) (4 * k) 4 = trunc 32 (rd_bytes m0 (4 * k) 4 + total k n inc ts).
Proof.
  intros ts m rq rs C H LC CU. pose proof (lock_synced p sz n W s0 m0 a G A4 AR ts m rq rs k C H LC GK GA) as SY.
  assert (X : forall T, (T <= length ts)%nat ->
    rd_bytes (flat_mem p m0 (hist n (firstn T ts))) (4 * k) 4 = trunc 32 (rd_bytes m0 (4 * k) 4 + total k n inc (firstn T ts))).
  2: { specialize (X (length ts) ltac:(li)). rewrite firstn_all in X. auto. }
  induction T as [|T IH]; intros TL.
  { cbn [firstn hist flat_map flat_mem]. change (total k n inc []) with 0. rewrite N.add_0_r. symmetry. apply trunc_small. apply (rd_size m0 (4 * k) 4). }
  specialize (IH ltac:(li)). destruct (nth_error ts T) as [t|] eqn:NT; [|apply nth_error_None in NT; li].
  rewrite (firstn_next _ _ _ _ NT). pose proof (nth_split_at _ _ _ _ NT) as SP. set (ts1 := firstn T ts) in *. set (ts2 := skipn (S T) ts) in *.
  assert (L1 : length ts1 = T) by (apply firstn_length_le; li). clearbody ts1 ts2.
  rewrite total_snoc, hist_app, flat_mem_app. cbn [hist flat_map]. rewrite app_nil_r.
  assert (NP : forall i, nth_error (proj i ts) T = Some (t i)) by (intros i; apply (map_nth_error (fun x => x i)); auto).
  assert (WFR : forall i, (i < n)%nat -> i_req_en (fst (t i)) = true -> wf_req p (i_req (fst (t i)))).
  { intros i I RE. destruct (C i I) as (_ & _ & CK). unfold client_ok in CK. rewrite Forall_forall in CK. apply (CK (t i)); auto. eapply nth_error_In; eauto. }
  assert (CUi : forall i, (i < n)%nat -> i_req_en (fst (t i)) = true -> modifies p (i_req (fst (t i))) k ->
     cq_type (i_req (fst (t i))) = T_WRITE /\ cq_addr (i_req (fst (t i))) = 4 * k /\ req_bytes p (i_req (fst (t i))) = 4 /\
     trunc 32 (cq_data (i_req (fst (t i)))) = trunc 32 (rd_bytes (flat_mem p m0 (hist n ts1)) (4 * k) 4 + inc T i)).
  { intros i I RE MO. destruct (CU i I ts1 t ts2 SP RE MO) as (T1 & T2 & T3 & ts0 & t0 & tsm & y & E & RE0 & R1 & R2 & R3 & NY & NO & DW).
    split; auto. split; auto. split; auto. rewrite DW, L1. f_equal. f_equal. apply rd_of_bytes.
    - assert (SP' : ts = ts0 ++ t0 :: (tsm ++ t :: ts2)) by (rewrite SP, E, <- app_assoc; auto).
      rewrite SP' in C, H, SY, NY. change (N.of_nat 4) with 4. rewrite <- R3.
      exact (r2_size _ _ _ _ _ (dyn_resp p sz n W k HK s0 m0 _ _ ts0 t0 (tsm ++ t :: ts2) m rq rs i y H C SY I RE0 NY) R1).
    - intros j J. change (N.of_nat 4) with 4 in J. rewrite <- R2, E.
      assert (SP' : ts = ts0 ++ t0 :: tsm ++ t :: ts2) by (rewrite SP, E, <- app_assoc; auto).
      rewrite SP' in C, H, LC, NY. rewrite <- R3 in J.
      apply (lock_unchanged p sz n W s0 m0 a G A4 AR k GK GA HK ts0 t0 tsm (t :: ts2) m rq rs i y j); auto.
      rewrite R2. apply word4. rewrite <- R3. auto. }
  assert (ONE : forall i j, (i < n)%nat -> (j < n)%nat -> i_req_en (fst (t i)) = true -> i_req_en (fst (t j)) = true ->
     modifies p (i_req (fst (t i))) k -> modifies p (i_req (fst (t j))) k -> i = j).
  { intros i j I J RI RJ MI MJ. pose proof (sy_modify _ _ _ _ _ _ _ SY i _ _ I (NP i) RI MI) as OI. pose proof (sy_modify _ _ _ _ _ _ _ SY j _ _ J (NP j) RJ MJ) as OJ.
    apply (sy_excl _ _ _ _ _ _ _ SY T); auto. li. }
  assert (WW : forall i, i_req_en (fst (t i)) && ((cq_type (i_req (fst (t i))) =? T_WRITE) && (cq_addr (i_req (fst (t i))) =? 4 * k)) = true ->
     (i < n)%nat -> i_req_en (fst (t i)) = true /\ modifies p (i_req (fst (t i))) k).
  { intros i B I. rewrite !andb_true_iff, !N.eqb_eq in B. destruct B as (B1 & B2 & B3). split; auto. left. split; auto.
    assert (RB : 1 <= req_bytes p (i_req (fst (t i)))).
    { destruct (rw_cases p _ (WFR i I B1)) as [(X & _)|(_ & _ & [-> | [-> | [-> | [X _]]]])]; try lia;
        [unfold rw_req; rewrite B2; auto | rewrite B2 in X; discriminate X | unfold req_bytes; rewrite B2, X; discriminate]. }
    rewrite B3. clear A4 AR. unfold word_num. split.
    - rewrite N.mul_comm, N.div_mul by discriminate. lia.
    - apply N.div_le_lower_bound; [discriminate|]. clear HK; lia. }
  clear CU. destruct (existsb (fun i => i_req_en (fst (t i)) && modb p (i_req (fst (t i))) k) (seq 0 n)) eqn:EX.
  - apply existsb_exists in EX. destruct EX as (i & I & B). apply in_seq in I. assert (I' : (i < n)%nat) by li. apply andb_prop in B. destruct B as [RE MO]. apply modb_ok in MO.
    destruct (CUi i I' RE MO) as (T1 & T2 & T3 & DW). set (w := i_req (fst (t i))) in *.
    assert (SQ : seq 0 n = seq 0 i ++ i :: seq (S i) (n - S i)).
    { replace n with (i + (1 + (n - S i)))%nat at 1 by li. rewrite seq_app. cbn [seq Nat.add]. auto. }
    unfold cyc_reqs, cyc_sum. rewrite SQ, flat_map_app, map_app. cbn [flat_map map]. rewrite acc1, RE. fold w.
    rewrite sum_app. cbn [fold_right].
    rewrite (sum_zero _ _ (seq 0 i)), (sum_zero _ _ (seq (S i) (n - S i))).
    2,3: intros j J; apply in_seq in J; cbv zeta; destruct (_ && _) eqn:B; auto; exfalso; destruct (WW j B) as [B1 B2]; [li|];
      assert (j = i) by (apply ONE; auto; li); li.
    rewrite T1, T2, !N.eqb_refl. cbn [andb]. rewrite N.add_0_r, N.add_0_l.
    assert (KS : forall l, (forall j, In j l -> (j < n)%nat /\ j <> i) -> Forall (keeps p k) (flat_map (fun j => accepted [t j]) l)).
    { intros l IL. apply Forall_forall. intros r R. apply in_flat_map in R. destruct R as (j & J & R). rewrite acc1 in R.
      destruct (i_req_en (fst (t j))) eqn:RJ; [|destruct R]. destruct R as [<- | []]. destruct (IL j J) as [J1 J2]. split; auto. }
    cbn [app]. rewrite flat_mem_app. cbn [flat_mem].
    set (V := flat_mem p m0 (hist n ts1)) in *.
    rewrite (agree_rd i _ (fst (flat_exec p (flat_mem p V (flat_map (fun j => accepted [t j]) (seq 0 i))) w)) I').
    2: { apply flat_keeps. apply KS. intros j J. apply in_seq in J. li. }
    unfold flat_exec. rewrite T1. cbn [N.eqb T_WRITE T_READ Pos.eqb fst]. rewrite T2, T3. change (N.to_nat 4) with 4%nat.
    rewrite rd_wr_same. change (8 * N.of_nat 4) with 32.
    replace (trunc 32 (trunc (p_dbw p) (cq_data w))) with (trunc 32 (cq_data w)).
    + rewrite DW, IH, trunc_addl. f_equal. rewrite L1. symmetry. apply N.add_assoc.
    + pose proof (wf_dbw _ (W i I')) as DB. change (p_dbw (sized p sz i)) with (p_dbw p) in DB. apply N.bits_inj. intros b. rewrite !testbit_trunc.
      destruct (N.ltb_spec b 32); auto. destruct (N.ltb_spec b (p_dbw p)); auto. exfalso. clear A4 AR HK. lia.
  - assert (KS : forall i, (i < n)%nat -> i_req_en (fst (t i)) = true -> ~ modifies p (i_req (fst (t i))) k).
    { intros i I RE MO. assert (true = false); [|discriminate]. rewrite <- EX. symmetry. apply existsb_exists. exists i. split; [apply in_seq; li|].
      rewrite RE. apply modb_ok. auto. }
    unfold cyc_sum. rewrite sum_zero, N.add_0_r.
    2: { intros j J. apply in_seq in J. cbv zeta. destruct (_ && _) eqn:B; auto. exfalso. destruct (WW j B) as [B1 B2]; [li|]. apply (KS j); auto. li. }
    rewrite <- IH. destruct (Nat.eq_dec n 0) as [->|NZ]; [reflexivity|]. apply (agree_rd 0%nat); [li|]. apply flat_keeps.
    apply Forall_forall. intros r R. unfold cyc_reqs in R. apply in_flat_map in R. destruct R as (j & J & R). apply in_seq in J. rewrite acc1 in R.
    destruct (i_req_en (fst (t j))) eqn:RJ; [|destruct R]. destruct R as [<- | []]. split; [apply WFR | apply KS]; auto; li.
Qed.
Theorem lock_counter_mem : forall ts m rq rs, clients p sz n s0 ts -> mmem p n m0 no_reqs no_resps ts m rq rs ->
  (forall i, (i < n)%nat -> lock_client p a G (proj i ts)) -> (forall i, (i < n)%nat -> counts_up p a k inc ts i) ->
  (forall i, (i < n)%nat -> holds a (proj i ts) = false) -> (0 < n)%nat ->
  rd_bytes m (4 * k) 4 = trunc 32 (rd_bytes m0 (4 * k) 4 + total k n inc ts).
Proof.
  intros ts m rq rs C H LC CU NH N0. rewrite <- (lock_counter ts m rq rs C H LC CU). apply rd_ext. intros j J. change (N.of_nat 4) with 4 in J.
  apply (lock_mem p sz n W s0 m0 a G A4 AR k GK GA HK ts m rq rs); auto; [apply in_word; auto; apply (abw2 0%nat); auto | apply word4; auto].
Qed.
End L.
