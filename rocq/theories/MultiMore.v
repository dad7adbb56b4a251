(** The multi-cache facts in terms of [multi_run]. *)
From Coq Require Import Arith NArith List Bool Lia.
From Verif Require Import Bits Params Msg Units Rtl Mem Spec System Tl ParamsProofs RefineInv RefineProofs
  UnitProofs ViewDefs ViewOps ViewProofs SysProofs SysFacts Traffic MetaProofs PendProofs TrafProofs MultiSys MultiProofs MultiFacts.
Import ListNotations.
Open Scope N_scope.

Section MM.
Variable p : params.
Variable sz : nat -> N * N.
Variable n : nat.
Hypothesis W : wf_caches p sz n.
Notation pp := (sized p sz).

Lemma run_caches : forall owner s0 ts m0 m rq rs, multi_run p sz n owner s0 ts m0 m rq rs ->
  caches p sz n owner s0 ts /\ mmem p n m0 no_reqs no_resps ts m rq rs.
Proof. intros. destruct H as [H1 H2]. split; auto. Qed.

(** Response of an access to the cache's own words *)
Theorem multi_own : forall owner s0 ts m0 m rq rs i k r y, multi_run p sz n owner s0 ts m0 m rq rs -> (i < n)%nat ->
  nth_error (accepted (proj i ts)) k = Some r -> nth_error (responses (proj i ts)) k = Some y ->
  (cq_type r = T_READ -> forall j, j < req_bytes p r -> owner (word_num (cq_addr r + j)) = Some i) ->
  (is_amo (cq_type r) = true -> owner (word_num (cq_addr r)) = Some i) ->
  cr_type y = cq_type r /\ cr_opq y = cq_opq r /\ cr_len y = cq_len r /\
  cr_data y = snd (flat_exec p (flat_mem p m0 (firstn k (accepted (proj i ts)))) r).
Proof.
  intros owner s0 ts m0 m rq rs i k r y H I N1 N2 OR OA. apply run_caches in H. destruct H as [C H].
  pose proof (multi_resp p sz n W owner s0 m0 ts m rq rs i k r y H C I N1 N2) as [RE RT RR RS RA RZ].
  unfold echo_y, echo in RE. inversion RE. split; auto. split; auto. split; auto.
  unfold flat_exec. destruct (N.eqb_spec (cq_type r) T_READ) as [TR|TR].
  { cbn [snd]. rewrite (rd_slice (N.to_nat (req_bytes p r)) _ _ (cr_data y) 0).
    - rewrite N2Nat.id. change (8 * 0) with 0. rewrite N.add_0_l. unfold slice. rewrite N.shiftr_0_r, N.sub_0_r, trunc_small; auto.
    - intros j J. rewrite N2Nat.id in J. rewrite N.add_0_l. symmetry. apply (RR TR j J). apply mineb_true. auto. }
  destruct (N.eqb_spec (cq_type r) T_WRITE) as [TW|TW].
  { cbn [snd]. apply RZ; auto. rewrite TW. auto. }
  destruct (is_amo (cq_type r)) eqn:IA; cbn [snd].
  - destruct RA as [RA _]; auto. apply RA. apply mineb_true. auto.
  - apply RZ; auto.
Qed.

Theorem multi_flags : forall owner s0 ts m0 m rq rs i k r y, multi_run p sz n owner s0 ts m0 m rq rs -> (i < n)%nat ->
  nth_error (accepted (proj i ts)) k = Some r -> nth_error (responses (proj i ts)) k = Some y ->
  cr_test y = snd (lru_step (pp i) (lru_run (pp i) lru_empty (firstn k (accepted (proj i ts)))) r).
Proof.
  intros owner s0 ts m0 m rq rs i k r y H I N1 N2. apply run_caches in H. destruct H as [C H].
  apply (ro_test _ _ _ _ _ _ _ (multi_resp p sz n W owner s0 m0 ts m rq rs i k r y H C I N1 N2)).
Qed.

Theorem multi_no_overwrite : forall owner s0 ts m0 m rq rs i j q l a, multi_run p sz n owner s0 ts m0 m rq rs ->
  (j < n)%nat -> rq j = q :: l -> owner (word_num a) = Some i -> i <> j -> a < 2 ^ p_abw p ->
  fst (mem_exec p m q) a = m a.
Proof.
  intros owner s0 ts m0 m rq rs i j q l a H J E OW NE HA. apply run_caches in H. destruct H as [C H].
  destruct (multi_ast p sz n W owner s0 m0 _ _ _ _ H C j J) as (cj & aj & CSj & ARj).
  pose proof (multi_inv p sz n W owner s0 m0 _ _ _ _ H C j cj aj J CSj ARj) as JJ. rewrite E in JJ.
  apply (J2_touch (pp j) (W j J) m0 (mineb owner j) _ _ _ _ _ _ _ _ a JJ HA).
  - left. unfold mineb. rewrite OW. apply Nat.eqb_neq. auto.
  - intros r R AW. destruct (C j J) as (_ & _ & _ & RS). rewrite Forall_forall in RS. destruct (RS r R) as [_ X].
    destruct (X _ AW) as [X' | X']; congruence.
Qed.

(** owner's last value: what its own history alone leaves *)
Theorem multi_flushed : forall owner s0 ts m0 m rq rs i A f B a, multi_run p sz n owner s0 ts m0 m rq rs -> (i < n)%nat ->
  accepted (proj i ts) = A ++ f :: B -> cq_type f = T_FLUSH -> (length A < length (responses (proj i ts)))%nat ->
  (forall r, In r B -> ~ write_word p r (word_num a) /\ ~ amo_word r (word_num a)) ->
  a < 2 ^ p_abw p -> owner (word_num a) = Some i ->
  trunc 8 (m a) = trunc 8 (flat_mem p m0 (accepted (proj i ts)) a).
Proof.
  intros owner s0 ts m0 m rq rs i A f B a H I EA TF L NB HA OW. apply run_caches in H. destruct H as [C H].
  rewrite (multi_flush p sz n W owner s0 m0 ts m rq rs i A f B a H C I EA TF L NB HA OW).
  rewrite EA, flat_mem_app. cbn [flat_mem]. rewrite (flat_keep_list p B).
  - unfold flat_exec. rewrite TF. cbn. auto.
  - destruct (C i I) as (_ & _ & CL & _). apply accepted_wf in CL. rewrite EA in CL. apply Forall_app in CL.
    destruct CL as [_ CL]. inversion CL; auto.
  - auto.
Qed.

Theorem multi_idle_word : forall owner s0 ts m0 m rq rs a, multi_run p sz n owner s0 ts m0 m rq rs -> a < 2 ^ p_abw p ->
  (forall i r, (i < n)%nat -> In r (accepted (proj i ts)) -> ~ write_word p r (word_num a) /\ ~ amo_word r (word_num a)) ->
  m a = m0 a.
Proof. intros. apply run_caches in H. destruct H as [C H]. eapply multi_untouched; eauto. Qed.

Theorem multi_writebacks : forall owner s0 ts t ts' m0 m rq rs i q, multi_run p sz n owner s0 (ts ++ t :: ts') m0 m rq rs ->
  (i < n)%nat -> o_mreq (snd (t i)) = Some q -> mq_type q = T_WRITE ->
  exists A r, accepted (proj i ts) = A ++ [r] /\
    (forall b, N.testbit (mq_mask q) b = true -> exists v, In v A /\ write_word p v (word_num (mq_addr q) + b)) /\
    (forall o, o < p_clw p / 8 -> N.testbit (mq_mask q) (o / 4) = true ->
       slice (mq_data q) (8 * o) (8 * o + 8) = trunc 8 (flat_mem p m0 A (mq_addr q + o))).
Proof. intros. apply run_caches in H. destruct H as [C H]. eapply multi_wb; eauto. Qed.

Lemma firstn_nth : forall A (l : list A) k j x, (j < k)%nat -> nth_error l j = Some x ->
  exists l1 l2, firstn k l = l1 ++ x :: l2 /\ length l1 = j.
Proof.
  intros A l k j x J N. apply nth_error_split. revert k j J N.
  induction l as [|y l IH]; intros [|k] [|j] J N; cbn in *; try lia; try discriminate; auto. apply IH; auto. lia.
Qed.

(** Foreign bytes are as fresh as the last INV *)
Theorem multi_fresh : forall owner s0 ts m0 m rq rs i k r y b, multi_run p sz n owner s0 ts m0 m rq rs -> (i < n)%nat ->
  nth_error (accepted (proj i ts)) k = Some r -> nth_error (responses (proj i ts)) k = Some y ->
  cq_type r = T_READ -> b < req_bytes p r -> owner (word_num (cq_addr r + b)) <> Some i ->
  exists t1 t2 mu rq1 rs1, ts = t1 ++ t2 /\
    mmem p n m0 no_reqs no_resps t1 mu rq1 rs1 /\ mmem p n mu rq1 rs1 t2 m rq rs /\
    (forall l v, (l < k)%nat -> nth_error (accepted (proj i ts)) l = Some v -> cq_type v = T_INV ->
       (l + 1 < length (accepted (proj i t1)))%nat) /\
    (length (accepted (proj i t1)) <= k + 1)%nat /\
    slice (cr_data y) (8 * b) (8 * b + 8) = trunc 8 (mu (cq_addr r + b)).
Proof.
  intros owner s0 ts m0 m rq rs i k r y b H I N1 N2 TR B NO. apply run_caches in H. destruct H as [C H].
  pose proof (multi_resp p sz n W owner s0 m0 ts m rq rs i k r y H C I N1 N2) as RO.
  destruct (ro_read _ _ _ _ _ _ _ RO TR b B) as [_ FR].
  assert (MF : mineb owner i (word_num (cq_addr r + b)) = false).
  { destruct (mineb owner i _) eqn:E; auto. apply mineb_true in E. contradiction. }
  specialize (FR MF). destruct FR as (k' & mu & (t1 & t2 & rq1 & rs1 & E1 & E2 & E3 & E4) & AI & LE & V).
  assert (LK : (k < length (accepted (proj i ts)))%nat) by (apply nth_error_Some; congruence).
  rewrite firstn_length_le in LE by lia.
  exists t1, t2, mu, rq1, rs1. subst k'. repeat split; auto.
  intros l v L NV TV. destruct (firstn_nth _ _ _ _ _ L NV) as (l1 & l2 & EF & EL). subst l. eapply AI; eauto.
Qed.

Lemma app_prefix : forall A (a b c d : list A), a ++ b = c ++ d -> (length a <= length c)%nat -> exists e, c = a ++ e.
Proof.
  induction a as [|x a IH]; intros b c d E L.
  - exists c. auto.
  - destruct c as [|y c]; cbn in *; [lia|]. inversion E; subst. destruct (IH b c d) as [e ->]; auto; [lia|]. exists e. auto.
Qed.

Theorem multi_message : forall owner s0 ts1 ts2 m0 m rq rs i j A f B l v k r y b,
  multi_run p sz n owner s0 (ts1 ++ ts2) m0 m rq rs -> (i < n)%nat -> (j < n)%nat -> i <> j ->
  (* the writer's flush has been answered within [ts1] *)
  accepted (proj j (ts1 ++ ts2)) = A ++ f :: B -> cq_type f = T_FLUSH -> (length A < length (responses (proj j ts1)))%nat ->
  (* the reader's invalidation starts after [ts1] *)
  nth_error (accepted (proj i (ts1 ++ ts2))) l = Some v -> cq_type v = T_INV -> (length (accepted (proj i ts1)) <= l)%nat ->
  (* and a read follows it *)
  nth_error (accepted (proj i (ts1 ++ ts2))) k = Some r -> nth_error (responses (proj i (ts1 ++ ts2))) k = Some y -> (l < k)%nat ->
  cq_type r = T_READ -> b < req_bytes p r -> owner (word_num (cq_addr r + b)) = Some j ->
  (forall w, In w B -> ~ write_word p w (word_num (cq_addr r + b)) /\ ~ amo_word w (word_num (cq_addr r + b))) ->
  slice (cr_data y) (8 * b) (8 * b + 8) = trunc 8 (flat_mem p m0 A (cq_addr r + b)).
Proof.
  intros owner s0 ts1 ts2 m0 m rq rs i j A f B l v k r y b H I J NE EA TF LA NV TV LV N1 N2 LK TR HB OW NW.
  destruct (multi_fresh owner s0 _ m0 m rq rs i k r y b H I N1 N2 TR HB ltac:(congruence))
    as (t1 & t2 & mu & rq1 & rs1 & E1 & M1 & _ & AI & _ & V).
  specialize (AI _ _ LK NV TV). apply run_caches in H. destruct H as [C H].
  assert (PX : exists e, t1 = ts1 ++ e).
  { destruct (Nat.le_gt_cases (length ts1) (length t1)) as [LE|GT].
    - eapply app_prefix; eauto.
    - exfalso. destruct (app_prefix _ t1 t2 ts1 ts2) as [e ->]; auto; [lia|]. rewrite proj_app, accepted_app, app_length in LV. lia. }
  destruct PX as [e ->].
  pose proof C as C0. rewrite E1 in C. apply caches_app in C.
  assert (CT : (length (responses (proj j (ts1 ++ e))) <= length (accepted (proj j (ts1 ++ e))))%nat) by (eapply multi_counts; eauto).
  assert (LR : (length A < length (responses (proj j (ts1 ++ e))))%nat).
  { rewrite proj_app, responses_app, app_length. lia. }
  rewrite E1, proj_app, accepted_app in EA.
  assert (PB : exists B', accepted (proj j (ts1 ++ e)) = A ++ f :: B' /\ exists B2, B = B' ++ B2).
  { destruct (app_prefix _ (A ++ [f]) B (accepted (proj j (ts1 ++ e))) (accepted (proj j t2))) as [B' EB].
    - rewrite EA, <- app_assoc. auto.
    - rewrite app_length. cbn. lia.
    - exists B'. rewrite EB, <- app_assoc. split; auto. rewrite EB, <- !app_assoc in EA. apply app_inv_head in EA. inversion EA. eauto. }
  destruct PB as (B' & EB & B2 & ->).
  rewrite V. eapply multi_flush; eauto.
  - intros w IN. apply NW. apply in_or_app. auto.
  - assert (WR : wf_req p r).
    { assert (C2 : client_ok p (proj i (ts1 ++ ts2))) by apply (C0 i I). apply accepted_wf in C2. rewrite Forall_forall in C2.
      apply C2. eapply nth_error_In; eauto. }
    assert (RD : wf_read p r).
    { destruct WR as (_ & _ & [Z | [Z | [Z | [Z | Z]]]]); auto.
      - destruct Z as [Z _]. rewrite TR in Z. discriminate.
      - destruct Z as [Z _]. rewrite TR in Z. exfalso. revert Z. vm_compute. intros [Z _]. apply Z. auto.
      - rewrite TR in Z. discriminate.
      - rewrite TR in Z. discriminate. }
    assert (X := req_in_range (pp i) (W i I) r WR (or_introl RD)). change (cq_addr r + req_bytes p r <= 2 ^ p_abw p) in X. cbn [p_abw sized]. lia.
Qed.
End MM.
