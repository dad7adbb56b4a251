(** One cache and one word that it may or may not touch or modify. *)
From Coq Require Import Arith NArith List Bool Lia.
From Verif Require Import Bits Params Msg Units Rtl Mem Spec System Tl ParamsProofs RefineInv RefineProofs
  UnitProofs ViewDefs ViewOps ViewProofs SysProofs SysFacts Traffic MetaProofs PendProofs TrafProofs
  Hide MultiSys MultiProofs MultiFacts DynSpec DynEvict.
Import ListNotations.
Open Scope N_scope.

Section D.
Variable p : params.
Hypothesis W : wf_params p.
Variable K : N.

Definition mk (mine : bool) : N -> bool := fun k => mine && (k =? K).
Notation agr := (fun b => agree p (mk b)).
Notation anyL := (fun (_ : nat) (_ : mem) => True).

Lemma agr_false : forall m m', agree p (mk false) m m'.
Proof. intros m m' a A M. discriminate M. Qed.
Lemma mk_true : forall b k, mk b k = true -> b = true /\ k = K.
Proof. intros b k H. apply andb_prop in H. destruct H as [H1 H2]. apply N.eqb_eq in H2. auto. Qed.
Lemma agr_true : forall b m m', agree p (mk true) m m' -> agree p (mk b) m m'.
Proof. intros b m m' H a A M. apply H; auto. apply mk_true in M. destruct M as [_ ->]. unfold mk. rewrite N.eqb_refl. auto. Qed.

Record resp2 (V : mem) (r : creq) (y : cresp) : Prop := mkResp2 {
  r2_read : cq_type r = T_READ -> forall j, j < req_bytes p r -> word_num (cq_addr r + j) = K ->
    gb (cr_data y) j = trunc 8 (V (cq_addr r + j));
  r2_amo : is_amo (cq_type r) = true -> word_num (cq_addr r) = K -> cr_data y = rd_bytes V (cq_addr r) 4;
  r2_size : cq_type r = T_READ -> cr_data y < 2 ^ (8 * req_bytes p r);
  r2_zero : cq_type r <> T_READ -> is_amo (cq_type r) = false -> cr_data y = 0
}.

(** a word written and not written back since *)
Definition dirty2 (A : list creq) (k : N) : Prop :=
  exists A1 r A2, A = A1 ++ r :: A2 /\ write_word p r k /\ forall B f C, A2 = B ++ f :: C -> ~ cleans p k (A1 ++ r :: B) f.
Lemma dirt_next2 : forall A c m m' L M (P : N -> bool) r d, (forall k, k * 4 < 2 ^ p_abw p -> P k = true -> dirty2 A k) ->
  cinv p c m -> lruinv p L c -> L = lru_run p lru_empty A -> wf_req p r -> cinv p (fst (tl_fin p c r d)) m' ->
  let P' := mark p (clears p P (writes (tl_reqs p c r))) r in
  pendeq p P' (fst (tl_fin p c r d)) -> req_traffic p P L M r (tl_reqs p c r) ->
  forall k, k * 4 < 2 ^ p_abw p -> P' k = true -> dirty2 (A ++ [r]) k.
Proof.
  intros A c m m' L M P r d D C GL EL WF C' P' PE T k HKk H.
  assert (CS : write_word p r k \/ clears p P (writes (tl_reqs p c r)) k = true).
  { unfold P', mark in H. destruct (N.eqb_spec (cq_type r) T_WRITE) as [E|E]; auto.
    apply orb_prop in H. destruct H as [H|H]; auto. left. apply andb_prop in H. destruct H as [H1 H2].
    apply N.leb_le in H1, H2. split; auto. }
  destruct CS as [CS | CS].
  - exists A, r, []. split; auto. split; auto. intros B f C0 X. destruct B; discriminate X.
  - assert (NC : ~ cleans p k A r).
    { intros [F | [(IA & LE) | (NI & PB & PA)]].
      - unfold req_traffic, rw_req in T. rewrite F in T.
        change ((T_FLUSH =? T_READ) || (T_FLUSH =? T_WRITE)) with false in T. change (is_amo T_FLUSH) with false in T.
        change (T_FLUSH =? T_FLUSH) with true in T. cbn iota in T. destruct T as [T1 T2].
        rewrite (wbs_writes _ _ _ _ T1) in CS. rewrite T2 in CS by auto. discriminate CS.
      - assert (RW : rw_req r = false).
        { unfold rw_req. destruct (N.eqb_spec (cq_type r) T_READ) as [X|X]; [rewrite X in IA; discriminate IA|].
          destruct (N.eqb_spec (cq_type r) T_WRITE) as [Y|Y]; [rewrite Y in IA; discriminate IA|]. auto. }
        unfold req_traffic in T. rewrite RW, IA in T. destruct T as (wb & q & EG & T1 & _ & _ & T4 & T5 & _).
        rewrite EG in CS. unfold writes in CS. rewrite filter_app in CS.
        assert (QW : is_write q = false). { unfold is_write. rewrite T5. unfold rw_req in RW. apply orb_false_iff in RW. apply RW. }
        cbn [filter] in CS. rewrite QW, app_nil_r in CS. fold (writes wb) in CS. rewrite (wbs_writes _ _ _ _ T1) in CS.
        rewrite T4 in CS; [discriminate CS|]. rewrite LE. unfold line_of. rewrite N.mul_comm. auto.
      - assert (HA : 4 * k < 2 ^ p_abw p) by lia.
        assert (PK : P' (word_num (4 * k)) = false).
        { eapply (evict_clean p W c m m' L P' r d (4 * k)); eauto.
          - rewrite EL. unfold absent in PB.
            destruct (in_dec N.eq_dec (line_of p (4 * k)) (lru_run p lru_empty A (line_of p (4 * k) mod nblocks p))); auto. contradiction.
          - rewrite EL. rewrite <- lru_snoc. auto. }
        unfold word_num in PK. rewrite N.mul_comm, N.div_mul in PK by discriminate. congruence. }
    apply clears_le in CS. destruct (D k HKk CS) as (A1 & v & A2 & EA & WV & FV).
    exists A1, v, (A2 ++ [r]). rewrite EA, <- app_assoc. split; auto. split; auto. intros B f C0 X.
    destruct C0 as [|z C0] using rev_ind.
    + apply app_inj_tail in X. destruct X as [-> <-]. rewrite <- EA. auto.
    + rewrite app_comm_cons, app_assoc in X. apply app_inj_tail in X. destruct X as [X _]. eapply FV. rewrite X. reflexivity.
Qed.

(** cache state, completed requests [A], their responses [Y], the memory each of
    them should have seen [Vs], and the memory after them [F] *)
Record good2 (b : bool) (A : list creq) (c : cst) (g F : mem) (Y : list cresp) (Vs : list mem) (P : N -> bool) : Prop := mkGood2 {
  g2_inv : cinv p c g;
  g2_lru : lruinv p (lru_run p lru_empty A) c;
  g2_pend : pendeq p P c;
  g2_dirt : forall k, k * 4 < 2 ^ p_abw p -> P k = true -> dirty2 A k;
  g2_view : forall a, a < 2 ^ p_abw p -> mk b (word_num a) = true -> view p c g a = trunc 8 (F a);
  g2_len : length Y = length A;
  g2_lenv : length Vs = length A;
  g2_resp : forall n r y V, nth_error A n = Some r -> nth_error Y n = Some y -> nth_error Vs n = Some V -> resp2 V r y
}.

Lemma word_lt : forall a, a < 2 ^ p_abw p -> word_num a * 4 < 2 ^ p_abw p.
Proof. intros a A. pose proof (word_mul4 a). lia. Qed.

Lemma fin2_core : forall b A c g F Y Vs P r d g1 Vr,
  good2 b A c g F Y Vs P -> wf_req p r -> agree p (mk b) g1 g -> cinv p c g1 ->
  let reqs := tl_reqs p c r in
  let c' := fst (tl_fin p c r d) in
  let y := snd (tl_fin p c r d) in
  let g' := fst (mem_run p g1 reqs) in
  c' = fst (tl_fin p c r (last_data (snd (mem_run p g1 reqs)))) ->
  resp2 Vr r y ->
  exists P',
  good2 b (A ++ [r]) c' g' (fst (flat_exec p F r)) (Y ++ [y]) (Vs ++ [Vr]) P' /\
  agree p (mk b) g' (fst (mem_run p g reqs)) /\ (~ write_word p r K -> P K = false -> P' K = false).
Proof.
  intros b A c g F Y Vs P r d g1 Vr G WF AG C1 reqs c' y g' CE RO. destruct G as [GC GL GP GD GV GN GM GR].
  destruct (traf_step p W c g1 P (lru_run p lru_empty A) (view p c g1) r d C1 GP GL) as [TR PE]; auto.
  fold reqs in TR, PE. fold c' in PE.
  pose proof (exec_traffic p W _ _ _ _ _ WF TR) as BN.
  destruct (lru_fin p W (lru_run p lru_empty A) c r d GL (ci_uniq _ _ _ C1) (ci_rep _ _ _ C1) WF) as [LF _].
  fold c' in LF.
  destruct (tl_step p W c g1 r C1 WF) as (S1 & S2 & _). fold reqs in S1, S2. rewrite <- CE in S1, S2. fold g' in S1, S2.
  exists (mark p (clears p P (writes reqs)) r).
  split; [|split; [eapply benign_run; eauto|]].
  - constructor.
    + auto.
    + rewrite lru_snoc. auto.
    + auto.
    + eapply dirt_next2; eauto.
    + intros a HA M. rewrite S2 by auto.
      assert (AV : agree p (mk b) (view p c g1) F).
      { intros x HX MX. rewrite (view_agree p c g1 g) by (apply AG; auto). rewrite GV by auto. apply trunc_small. apply trunc_lt. }
      rewrite <- (flat_local p W (mk b) r _ _ WF AV a HA M). rewrite <- S2 by auto. symmetry. apply trunc_small. apply view_lt.
    + rewrite !app_length. cbn. lia.
    + rewrite !app_length. cbn. lia.
    + intros n r1 y1 V1 N1 N2 N3. apply nth_snoc in N1. apply nth_snoc in N2. apply nth_snoc in N3.
      destruct N1 as [(E1 & ->) | (L1 & N1)], N2 as [(E2 & ->) | (L2 & N2)], N3 as [(E3 & ->) | (L3 & N3)]; try lia; eauto.
  - intros BF PF. unfold mark. assert (CF : clears p P (writes reqs) K = false).
    { destruct (clears p P (writes reqs) K) eqn:E; auto. apply clears_le in E. congruence. }
    destruct (N.eqb_spec (cq_type r) T_WRITE) as [T|T]; auto. rewrite CF. cbn [orb].
    destruct ((word_num (cq_addr r) <=? K) && (K <=? word_num (cq_addr r + req_bytes p r - 1))) eqn:E; auto.
    apply andb_prop in E. destruct E as [E1 E2]. apply N.leb_le in E1, E2.
    exfalso. apply BF. split; auto.
Qed.

(** bytes of a missing line are not touched by the eviction *)
Lemma miss_keep : forall c g P L r x m, cinv p c g -> pendeq p P c -> lruinv p L c -> wf_req p r -> rw_req r = true -> tl_hit p c r = false ->
  x < 2 ^ p_abw p -> line_of p x = line_of p (cq_addr r) -> fst (mem_run p m (wbs p c r)) x = m x.
Proof.
  intros c g P L r x m C GP GL WF RW HI X E. pose proof WF as (HA & _). destruct (rw_type r RW) as (NA & NI & NF).
  pose proof (ci_uniq _ _ _ C) as U. pose proof (look_spec p W c r U) as LK. rewrite HI in LK.
  destruct (tl_inval p c r) eqn:IV.
  - assert (EV : wbs p c r = []). { unfold wbs, tl_evict, tl_isamo. rewrite NA, IV. auto. }
    rewrite EV. auto.
  - destruct (traf_step p W c g P L (view p c g) r 0 C GP GL) as [TR _]; auto.
    pose proof (exec_traffic p W _ _ _ _ _ WF TR) as BN.
    assert (RQ : tl_reqs p c r = wbs p c r ++ [refill_req p c r]) by (unfold tl_reqs, tl_isamo; rewrite NI, NF, NA, HI; auto).
    rewrite RQ in BN. apply Forall_app in BN. destruct BN as [BN _].
    apply (benign_keep p P r); auto.
    + rewrite GP by auto. apply not_true_iff_false. intros D. apply dset_true in D. destruct D as (w & Hw & D).
      apply dirty_at_inv in D. destruct D as [D1 D2]. rewrite !(line_eq p W) in E by auto.
      apply (lno_inj2 p W) in E; [|apply a_idx_lt; auto|apply a_idx_lt; auto]. destruct E as [E1 E2].
      inversion LK as [| |L1 L2]. rewrite E1, E2 in *. apply (L1 w); auto. eapply ldty_present; eauto.
    + intros (Z & _). congruence.
Qed.

(** READ and WRITE, given a ghost memory on which they have the right effect *)
Lemma fin2_rw : forall b A c g F Y Vs P r d g1 Vr,
  good2 b A c g F Y Vs P -> wf_req p r -> (touches p r K -> b = true) -> rw_req r = true ->
  agree p (mk b) g1 g -> cinv p c g1 -> agree p (mk b) F Vr ->
  d = last_data (snd (mem_run p g1 (tl_reqs p c r))) ->
  exists g' P', good2 b (A ++ [r]) (fst (tl_fin p c r d)) g' (fst (flat_exec p F r)) (Y ++ [snd (tl_fin p c r d)]) (Vs ++ [Vr]) P' /\
    agree p (mk b) g' (fst (mem_run p g (tl_reqs p c r))) /\ (~ write_word p r K -> P K = false -> P' K = false).
Proof.
  intros b A c g F Y Vs P r d g1 Vr G WF TB RW AG C1 AV DD.
  destruct (rw_type r RW) as (NA & NI & NF).
  destruct (tl_step p W c g1 r C1 WF) as (_ & _ & S3). rewrite <- DD in S3.
  eexists. eapply (fin2_core b A c g F Y Vs P r d g1); auto.
  - rewrite DD. auto.
  - constructor; [|intros X; congruence| |].
    2:{ intros TR. rewrite S3. unfold flat_exec. rewrite TR. change (T_READ =? T_READ) with true. cbn [snd].
      pose proof (rd_size (view p c g1) (cq_addr r) (N.to_nat (req_bytes p r))) as X. rewrite N2Nat.id in X. auto. }
    2:{ intros NR _. rewrite S3. unfold flat_exec. apply N.eqb_neq in NR. rewrite NR, NA. destruct (cq_type r =? T_WRITE); auto. }
    intros TR j J WK. rewrite S3. unfold flat_exec. rewrite TR. change (T_READ =? T_READ) with true. cbn [snd].
    rewrite gb_rd by (rewrite N2Nat.id; auto).
    assert (WR : wf_read p r) by (destruct (rw_cases p r WF RW) as [X | (X & _)]; auto; rewrite TR in X; discriminate).
    assert (HJ : cq_addr r + j < 2 ^ p_abw p) by (pose proof (req_in_range p W r WF (or_introl WR)); lia).
    assert (BT : b = true).
    { apply TB. left. split; auto. rewrite <- WK. unfold word_num. split; apply N.div_le_mono; lia. }
    assert (M : mk b (word_num (cq_addr r + j)) = true) by (unfold mk; rewrite BT, WK, N.eqb_refl; auto).
    rewrite (view_agree p c g1 g) by (apply AG; auto). rewrite (g2_view _ _ _ _ _ _ _ _ G) by auto.
    rewrite trunc_small by apply trunc_lt. apply AV; auto.
Qed.

Theorem fin2 : forall b A c g F Y Vs P r xs Vr,
  good2 b A c g F Y Vs P -> wf_req p r -> (touches p r K -> b = true) -> agree p (mk b) F Vr ->
  answers p (mk b) anyL (length A + 1) g (tl_reqs p c r) xs ->
  exists g' P', good2 b (A ++ [r]) (fst (tl_fin p c r (last_data xs))) g' (fst (flat_exec p F r))
      (Y ++ [snd (tl_fin p c r (last_data xs))]) (Vs ++ [Vr]) P' /\
    agree p (mk b) g' (fst (mem_run p g (tl_reqs p c r))) /\ (~ write_word p r K -> P K = false -> P' K = false).
Proof.
  intros b A c g F Y Vs P r xs Vr G WF TB AV AN.
  pose proof (g2_inv _ _ _ _ _ _ _ _ G) as C. pose proof (g2_lru _ _ _ _ _ _ _ _ G) as GL. pose proof WF as (HA & _).
  pose proof (ci_uniq _ _ _ C) as U. pose proof (ci_rep _ _ _ C) as RP.
  destruct (rw_req r) eqn:RW.
  - destruct (rw_type r RW) as (NA & NI & NF).
    destruct (tl_hit p c r) eqn:HI.
    + (* hit *)
      assert (RQ : tl_reqs p c r = []) by (unfold tl_reqs, tl_isamo; rewrite NI, NF, NA, HI; auto).
      assert (XS : xs = []) by (rewrite RQ in AN; destruct xs; [auto | contradiction]). rewrite XS. clear AN XS.
      apply (fin2_rw b A c g F Y Vs P r _ g); auto using agree_refl. rewrite RQ. auto.
    + (* miss *)
      assert (RQ : tl_reqs p c r = wbs p c r ++ [refill_req p c r]) by (unfold tl_reqs, tl_isamo; rewrite NI, NF, NA, HI; auto).
      rewrite RQ in AN. apply answers_snoc_inv in AN. destruct AN as (xs' & mu & -> & _ & AGM & _).
      set (g1 := fun a => if mk b (word_num a) then g a else if line_of p a =? line_of p (cq_addr r) then mu a else g a).
      assert (AG : agree p (mk b) g1 g) by (intros a Ha M; unfold g1; rewrite M; auto).
      assert (C1 : cinv p c g1).
      { constructor; auto. intros w i o Hw Hi Ho V D. rewrite (ci_coh _ _ _ C) by auto.
        set (a := mk_addr p (ltag p c w i) i o).
        assert (Hp : i < 2 ^ idxw p) by (apply (idx_pow p W); auto).
        assert (Ha : a < 2 ^ p_abw p) by (apply (mk_addr_lt p W); unfold ltag; apply te_tag_lt).
        assert (LN : line_of p a <> line_of p (cq_addr r)).
        { intros E. rewrite !(line_eq p W) in E by auto. apply (lno_inj2 p W) in E; [|apply a_idx_lt; auto|apply a_idx_lt; auto].
          unfold a in E. rewrite a_tag_mk, a_idx_mk in E by (auto; unfold ltag; apply te_tag_lt). destruct E as [E1 E2].
          pose proof (look_spec p W c r U) as LK. rewrite HI in LK.
          inversion LK as [|w1 L1 L2 L3 L4 L5 L6|L1 L2].
          - assert (w = tl_hw p c r).
            { apply (U w (tl_hw p c r) i); auto using lval_present; rewrite ?E2; auto.
              - unfold present. apply N.eqb_neq in L3. rewrite L3. apply orb_true_r.
              - rewrite L4, <- E1, E2. auto. }
            subst w. congruence.
          - apply (L1 w); auto; rewrite <- E2; auto using lval_present. }
        unfold g1. apply N.eqb_neq in LN. rewrite LN. destruct (mk b (word_num a)); auto. }
      destruct (traf_step p W c g1 P (lru_run p lru_empty A) (view p c g1) r 0 C1 (g2_pend _ _ _ _ _ _ _ _ G) GL) as [TR _]; auto.
      pose proof (exec_traffic p W _ _ _ _ _ WF TR) as BN. rewrite RQ in BN. apply Forall_app in BN. destruct BN as [BN _].
      assert (LA : line_addr p (cq_addr r) < 2 ^ p_abw p) by (apply (mk_addr_lt p W); apply a_tag_lt).
      apply (fin2_rw b A c g F Y Vs P r _ g1); auto.
      rewrite RQ, mem_run_app. cbn [snd]. unfold last_data. rewrite !fold_left_app. rewrite mem_run_cons. cbn [snd fold_left mem_run].
      unfold mem_exec, refill_req. cbn [mq_type mq_len mq_addr mq_opq]. change (T_READ =? T_READ) with true.
      change (0 =? 0) with true. cbn [snd mr_data].
      apply rd_ext. intros k HKb. rewrite N2Nat.id, (clw_bytes p W) in HKb.
      assert (OB : a_off p (line_addr p (cq_addr r)) = 0) by (unfold line_addr; apply base_off0; auto).
      destruct (addr_add p W (line_addr p (cq_addr r)) k LA) as (B1 & B2 & B3 & B4); [lia|].
      set (z := line_addr p (cq_addr r) + k) in *.
      assert (Hp : a_idx p (cq_addr r) < 2 ^ idxw p) by (apply (idx_pow p W); apply a_idx_lt; auto).
      assert (LB : line_of p z = line_of p (cq_addr r)).
      { rewrite !(line_eq p W) by auto. rewrite B2, B3. unfold line_addr. rewrite a_tag_mk, a_idx_mk by (auto; apply a_tag_lt). auto. }
      destruct (mk b (word_num z)) eqn:M.
      * rewrite AGM by auto. apply (benign_run p (mk b) P r (wbs p c r) g g1); auto. apply agree_sym; auto.
      * rewrite (miss_keep c g P (lru_run p lru_empty A) r z g1 C (g2_pend _ _ _ _ _ _ _ _ G) GL WF RW HI B1 LB).
        unfold g1. rewrite M, LB, N.eqb_refl. auto.
  - destruct (not_rw p r WF RW) as [WA | [TI | TF]].
    + (* AMO *)
      destruct (amo_type p r WA) as (_ & IA & NI & NF & NR & NW).
      assert (RQ : tl_reqs p c r = wbs p c r ++ [amo_req p c r]) by (unfold tl_reqs, tl_isamo; rewrite NI, NF, IA; auto).
      assert (CI : forall d d', fst (tl_fin p c r d) = fst (tl_fin p c r d')) by (intros; unfold tl_fin, tl_isamo; rewrite NI, NF, IA; auto).
      assert (AD : mq_addr (amo_req p c r) = cq_addr r) by (unfold amo_req, off_len; cbn [mq_addr fst]; apply mk_addr_parts; auto).
      assert (DX : forall mm, mr_data (snd (mem_exec p mm (amo_req p c r))) = rd_bytes mm (cq_addr r) 4).
      { intros mm. unfold mem_exec. rewrite AD. unfold amo_req. cbn [mq_type]. rewrite NR, NW. auto. }
      rewrite RQ in AN. apply answers_snoc_inv in AN. destruct AN as (xs' & mu & -> & _ & AGM & _).
      eexists. eapply (fin2_core b A c g F Y Vs P r _ g); auto using agree_refl.
      constructor; [intros X; rewrite X in NR; discriminate NR| |intros X; rewrite X in NR; discriminate NR|intros _ X; congruence].
      intros _ WK.
      assert (DT : cr_data (snd (tl_fin p c r (last_data (xs' ++ [snd (mem_exec p mu (amo_req p c r))])))) = rd_bytes mu (cq_addr r) 4).
      { unfold tl_fin, tl_isamo. rewrite NI, NF, IA. cbn [snd tl_resp cr_data]. unfold last_data. rewrite fold_left_app. cbn [fold_left].
        rewrite DX. unfold slice. rewrite N.shiftr_0_r, N.sub_0_r. apply trunc_small. apply (rd_size mu (cq_addr r) 4). }
      assert (BT : b = true) by (apply TB; right; split; auto).
      rewrite DT. destruct (tl_step p W c g r C WF) as (_ & _ & S3).
      assert (DG : cr_data (snd (tl_fin p c r (last_data (snd (mem_run p g (tl_reqs p c r)))))) = rd_bytes (fst (mem_run p g (wbs p c r))) (cq_addr r) 4).
      { rewrite RQ, mem_run_app. cbn [snd]. unfold tl_fin, tl_isamo. rewrite NI, NF, IA. cbn [snd tl_resp cr_data]. unfold last_data. rewrite fold_left_app.
        rewrite mem_run_cons. cbn [snd fold_left mem_run]. rewrite DX. unfold slice. rewrite N.shiftr_0_r, N.sub_0_r. apply trunc_small.
        apply (rd_size _ (cq_addr r) 4). }
      rewrite DG in S3. unfold flat_exec in S3. rewrite NR, NW, IA in S3. cbn [snd] in S3.
      assert (WORD : forall k, k < N.of_nat 4 -> cq_addr r + k < 2 ^ p_abw p /\ mk b (word_num (cq_addr r + k)) = true).
      { intros k HK4. change (N.of_nat 4) with 4 in HK4. pose proof WA as (_ & AL & _). split.
        - destruct (off_aligned p (cq_addr r) 2) as [_ OF]; [pose proof (offw_ge3 p W); lia | auto |].
          apply (addr_add p W); [apply WF|]. change (2 ^ 2) with 4 in OF. lia.
        - unfold mk. rewrite BT. apply N.eqb_eq. rewrite <- WK. unfold word_num. pose proof (N.div_mod' (cq_addr r) 4) as DM. rewrite AL in DM.
          set (z := cq_addr r / 4) in *. clearbody z. symmetry. apply N.div_unique with k; lia. }
      transitivity (rd_bytes (fst (mem_run p g (wbs p c r))) (cq_addr r) 4).
      * apply rd_ext. intros k HK4. destruct (WORD k HK4). apply AGM; auto.
      * rewrite S3. apply rd_ext. intros k HK4. destruct (WORD k HK4). rewrite (g2_view _ _ _ _ _ _ _ _ G) by auto.
        rewrite trunc_small by apply trunc_lt. apply AV; auto.
    + (* INV *)
      eexists. eapply (fin2_core b A c g F Y Vs P r _ g); auto using agree_refl.
      * unfold tl_fin. rewrite TI. auto.
      * constructor; try (rewrite TI; intros X; discriminate X). intros _ _. unfold tl_fin. rewrite TI. reflexivity.
    + (* FLUSH *)
      eexists. eapply (fin2_core b A c g F Y Vs P r _ g); auto using agree_refl.
      * unfold tl_fin. rewrite TF. auto.
      * constructor; try (rewrite TF; intros X; discriminate X). intros _ _. unfold tl_fin. rewrite TF. reflexivity.
Qed.

(** State of one cache; [b]: it may touch the word and its line is as fresh as
    needed; [w]: it may also modify it; [V]: the memory that all accepted requests
    should have left; [nd]: number of completed requests. *)
Inductive J3 (b w : bool) (V : mem) : ast -> mem -> list mreq -> list mresp -> list creq -> list cresp -> list mem -> nat -> Prop :=
| J3_idle : forall c pd m A E g F Vs P, good2 b A c g F (E ++ pd) Vs P -> agree p (mk b) g m -> agree p (mk b) F V ->
    (w = false -> P K = false) ->
    J3 b w V (mkA c None pd) m [] [] A E Vs (length A)
| J3_busy : forall c r todo out l pd m rq rs A E g F Vs P ex qs got xs Vr,
    good2 b A c g F (E ++ pd) Vs P -> wf_req p r -> (touches p r K -> b = true) -> (modifies p r K -> w = true) ->
    tl_reqs p c r = ex ++ qs ++ todo ->
    agree p (mk b) (fst (mem_run p g ex)) m -> answers p (mk b) anyL (length A + 1) g ex (got ++ xs) ->
    agree p (mk b) F Vr -> agree p (mk b) (fst (flat_exec p F r)) V -> (w = false -> P K = false) ->
    Forall2 rsim xs rs -> Forall2 (mreq_match r) qs rq -> l = last_data got ->
    (exists ms, out = ms ++ rq /\ length ms = length rs) ->
    J3 b w V (mkA c (Some (mkCur r todo out l)) pd) m rq rs (A ++ [r]) E (Vs ++ [Vr]) (length A).

Lemma J3_other : forall b w V a m m' rq rs A E Vs nd, J3 b w V a m rq rs A E Vs nd -> agree p (mk b) m m' -> J3 b w V a m' rq rs A E Vs nd.
Proof.
  intros b w V a m m' rq rs A E Vs nd H AG. inversion H; subst.
  - eapply J3_idle; eauto using agree_trans.
  - eapply J3_busy; eauto using agree_trans.
Qed.
Lemma J3_V : forall b w V V' a m rq rs A E Vs nd, J3 b w V a m rq rs A E Vs nd -> agree p (mk b) V V' -> J3 b w V' a m rq rs A E Vs nd.
Proof.
  intros b w V V' a m rq rs A E Vs nd H AG. inversion H; subst.
  - eapply J3_idle; eauto using agree_trans.
  - eapply J3_busy; eauto using agree_trans.
Qed.
Lemma J3_up : forall b w V a m rq rs A E Vs nd, J3 b w V a m rq rs A E Vs nd -> J3 b true V a m rq rs A E Vs nd.
Proof.
  intros b w V a m rq rs A E Vs nd H. inversion H; subst.
  - eapply J3_idle; eauto. intros X; discriminate X.
  - eapply J3_busy; eauto. intros X; discriminate X.
Qed.

Lemma good2_benign : forall b A c g F Y Vs P r, good2 b A c g F Y Vs P -> wf_req p r -> Forall (benign p P r) (tl_reqs p c r).
Proof.
  intros b A c g F Y Vs P r G WF.
  destruct (traf_step p W c g P (lru_run p lru_empty A) (view p c g) r 0 (g2_inv _ _ _ _ _ _ _ _ G)
    (g2_pend _ _ _ _ _ _ _ _ G) (g2_lru _ _ _ _ _ _ _ _ G)) as [TR _]; auto.
  eapply exec_traffic; eauto.
Qed.

Lemma J3_exec : forall b w V a m q rq rs A E Vs nd, J3 b w V a m (q :: rq) rs A E Vs nd ->
  J3 b w V a (fst (mem_exec p m q)) rq (rs ++ [snd (mem_exec p m q)]) A E Vs nd.
Proof.
  intros b w V a m q rq rs A E Vs nd H. inversion H; subst; clear H.
  match goal with F : Forall2 (mreq_match r) qs _ |- _ => inversion F as [|e ? qs' ? M1 M2]; subst; clear F end.
  destruct (mem_exec_sim p m r e q M1) as [S1 S2].
  match goal with Z : exists ms, _ |- _ => destruct Z as (ms & -> & LM) end.
  match goal with Z : tl_reqs p c r = _ |- _ => rename Z into TR end.
  match goal with Z : good2 _ _ _ _ _ _ _ _ |- _ => pose proof (good2_benign _ _ _ _ _ _ _ _ r Z ltac:(auto)) as BN end.
  rewrite TR in BN. apply Forall_app in BN. destruct BN as [_ BN]. inversion BN as [|? ? B1 _]; subst.
  eapply J3_busy with (ex := ex ++ [e]) (qs := qs') (got := got) (xs := xs ++ [snd (mem_exec p m e)]); eauto.
  - rewrite TR. rewrite <- app_assoc. auto.
  - rewrite mem_run_app. cbn [fst]. rewrite mem_run_cons. cbn [fst mem_run]. rewrite <- S1. eapply benign_agree; eauto.
  - rewrite app_assoc. apply answers_snoc; auto. apply agree_sym; auto.
  - apply Forall2_app; auto.
  - exists (ms ++ [q]). rewrite <- app_assoc. split; auto. rewrite !app_length. cbn. lia.
Qed.

(** a cache that may not modify the word leaves it alone *)
Lemma J3_touch : forall b V a m q rq rs A E Vs nd, J3 b false V a m (q :: rq) rs A E Vs nd ->
  agree p (mk true) m (fst (mem_exec p m q)).
Proof.
  intros b V a m q rq rs A E Vs nd H x X M. apply mk_true in M. destruct M as [_ WX]. inversion H; subst; clear H.
  match goal with F : Forall2 (mreq_match r) qs _ |- _ => inversion F as [|e ? qs' ? M1 M2]; subst; clear F end.
  match goal with Z : tl_reqs p c r = _ |- _ => rename Z into TR end.
  match goal with Z : good2 _ _ _ _ _ _ _ _ |- _ => rename Z into G end.
  pose proof (good2_benign _ _ _ _ _ _ _ _ r G ltac:(auto)) as BN.
  rewrite TR in BN. apply Forall_app in BN. destruct BN as [_ BN]. inversion BN as [|? ? B1 _]; subst.
  destruct (match_benign p _ _ _ _ M1 B1 x X) as [H | [(H & _) | (H & _)]].
  - rewrite H. auto.
  - rewrite WX in H. match goal with Z : false = false -> _ |- _ => rewrite (Z eq_refl) in H end. discriminate H.
  - assert (T : modifies p r K) by (rewrite <- WX; right; auto).
    match goal with Z : modifies p r K -> false = true |- _ => specialize (Z T); discriminate Z end.
Qed.

Lemma J3_recv : forall b w V a m rq x rs A E Vs nd a', J3 b w V a m rq (x :: rs) A E Vs nd -> a_recv a x a' -> J3 b w V a' m rq rs A E Vs nd.
Proof.
  intros b w V a m rq x rs A E Vs nd a' H R. inversion R; subst. inversion H; subst; clear H.
  match goal with F : Forall2 rsim ?xs (x :: rs) |- _ => inversion F as [|x' ? xs' ? M1 M2]; subst; clear F end.
  match goal with Z : exists ms, _ |- _ => destruct Z as (ms & MS & LM) end.
  destruct ms as [|mz ms]; [discriminate LM|]. cbn [app] in MS. inversion MS; subst.
  eapply J3_busy with (got := got ++ [x']) (xs := xs'); eauto.
  - rewrite <- app_assoc. auto.
  - unfold last_data. rewrite fold_left_app. cbn. symmetry. apply M1.
Qed.
Lemma J3_send : forall b w V a m rq rs A E Vs nd q a', J3 b w V a m rq rs A E Vs nd -> a_send a q a' -> J3 b w V a' m (rq ++ [q]) rs A E Vs nd.
Proof.
  intros b w V a m rq rs A E Vs nd q a' H R. inversion R; subst. inversion H; subst; clear H.
  match goal with Z : exists ms, _ |- _ => destruct Z as (ms & -> & LM) end.
  eapply J3_busy with (ex := ex) (qs := qs ++ [e]); eauto.
  - match goal with Z : tl_reqs p c r = _ |- _ => rewrite Z end. rewrite <- !app_assoc. auto.
  - apply Forall2_app; auto.
  - exists ms. rewrite app_assoc. auto.
Qed.
Lemma J3_emit : forall b w V a m rq rs A E Vs nd y a', J3 b w V a m rq rs A E Vs nd -> a_emit a y a' -> J3 b w V a' m rq rs A (E ++ [y]) Vs nd.
Proof.
  intros b w V a m rq rs A E Vs nd y a' H R. inversion R; subst. inversion H; subst; clear H.
  - eapply J3_idle; eauto. rewrite <- app_assoc. eauto.
  - eapply J3_busy; eauto. rewrite <- app_assoc. eauto.
Qed.
Lemma J3_done : forall b w V a m rq rs A E Vs nd a', J3 b w V a m rq rs A E Vs nd -> a_done p a a' ->
  J3 b w V a' m rq rs A E Vs (length A) /\ length A = S nd.
Proof.
  intros b w V a m rq rs A E Vs nd a' H R. inversion R; subst. inversion H; subst; clear H.
  match goal with Z : exists ms, _ |- _ => destruct Z as (ms & MS & LM) end.
  symmetry in MS. apply app_eq_nil in MS. destruct MS; subst.
  destruct rs; [|discriminate LM].
  match goal with F : Forall2 rsim xs [] |- _ => inversion F; subst; clear F end.
  match goal with F : Forall2 (mreq_match r) qs [] |- _ => inversion F; subst; clear F end.
  rewrite !app_nil_r in *.
  match goal with Z : tl_reqs p c r = _ |- _ => rename Z into TR end.
  rewrite <- TR in *.
  match goal with Z : good2 _ _ _ _ _ _ _ _ |- _ => rename Z into G end.
  match goal with Z : answers _ _ _ _ _ _ _ |- _ => rename Z into AN end.
  match goal with Z : agree p _ F Vr |- _ => rename Z into AV end.
  destruct (fin2 _ _ _ _ _ _ _ _ _ _ _ G ltac:(eauto) ltac:(eauto) AV AN) as (g' & P' & G' & AG' & PF).
  rewrite <- app_assoc in G'. split; [|rewrite app_length; cbn; lia].
  eapply J3_idle; eauto using agree_trans. intros WF0. apply PF; auto. intros WW.
  match goal with Z : modifies p r K -> _ |- _ => rewrite Z in WF0; [discriminate WF0 | left; auto] end.
Qed.
Lemma J3_acc : forall b w V a m rq rs A E Vs nd r a', J3 b w V a m rq rs A E Vs nd -> a_acc p a r a' -> wf_req p r ->
  (touches p r K -> b = true) -> (modifies p r K -> w = true) -> J3 b w (fst (flat_exec p V r)) a' m rq rs (A ++ [r]) E (Vs ++ [V]) nd.
Proof.
  intros b w V a m rq rs A E Vs nd r a' H R WR TB TM. inversion R; subst. inversion H; subst; clear H.
  eapply J3_busy with (ex := []) (qs := []) (got := []) (xs := []); eauto.
  - exact I.
  - apply flat_local; auto.
  - exists []. auto.
Qed.
Lemma J3_idle_nd : forall b w V c pd m rq rs A E Vs nd, J3 b w V (mkA c None pd) m rq rs A E Vs nd -> nd = length A.
Proof. intros. inversion H; auto. Qed.
Lemma J3_nd : forall b w V a m rq rs A E Vs nd, J3 b w V a m rq rs A E Vs nd -> (length E <= nd <= length A)%nat /\ length Vs = length A.
Proof.
  intros b w V a m rq rs A E Vs nd H. inversion H; subst; match goal with Z : good2 _ _ _ _ _ _ _ _ |- _ => destruct Z end;
    rewrite !app_length in *; cbn [length] in *; lia.
Qed.

(** *** Getting the word *)
Lemma absent_miss : forall b A c g F Y Vs P, good2 b A c g F Y Vs P -> absent p K A ->
  forall w i o, w < p_assoc p -> i < nblocks p -> o < 2 ^ offw p -> lval p c w i = true ->
  word_num (mk_addr p (ltag p c w i) i o) <> K.
Proof.
  intros b A c g F Y Vs P G AB w i o Hw Hi Ho V E.
  pose proof (g2_inv _ _ _ _ _ _ _ _ G) as C. pose proof (g2_lru _ _ _ _ _ _ _ _ G) as GL.
  set (a := mk_addr p (ltag p c w i) i o) in *.
  assert (Hp : i < 2 ^ idxw p) by (apply (idx_pow p W); auto).
  assert (Ha : a < 2 ^ p_abw p) by (apply (mk_addr_lt p W); unfold ltag; apply te_tag_lt).
  set (r := mkCReq T_READ 0 a 0 0).
  assert (HI : tl_hit p c r = true).
  { pose proof (look_spec p W c r (ci_uniq _ _ _ C)) as LK. cbn [cq_addr r] in LK. unfold a in LK at 1 2.
    rewrite a_tag_mk, a_idx_mk in LK by (auto; unfold ltag; apply te_tag_lt).
    inversion LK as [| w1 L1 L2 L3 L4 L5 L6| L1 L2]; auto; exfalso.
    - assert (w = tl_hw p c r).
      { apply (ci_uniq _ _ _ C w (tl_hw p c r) i); auto using lval_present.
        unfold present. apply N.eqb_neq in L3. rewrite L3. apply orb_true_r. }
      congruence.
    - apply (L1 w); auto using lval_present. }
  apply (in_lru p W _ c r GL (ci_uniq _ _ _ C) (ci_rep _ _ _ C) Ha) in HI. cbn [cq_addr r] in HI.
  rewrite <- (line_set p W) in HI by auto. apply AB.
  replace (line_of p (4 * K)) with (line_of p a); auto.
  unfold line_of. destruct (line4 p W) as (k & LB4). rewrite LB4. pose proof (lb_pos p W) as LP. rewrite LB4 in LP.
  rewrite <- !N.div_div by lia. rewrite (N.mul_comm 4 K), N.div_mul by lia. unfold word_num in E. rewrite E. auto.
Qed.

Lemma J3_get : forall V c pd m rq rs A E Vs nd, J3 false false V (mkA c None pd) m rq rs A E Vs nd ->
  absent p K A -> agree p (mk true) m V -> J3 true false V (mkA c None pd) m rq rs A E Vs nd.
Proof.
  intros V c pd m rq rs A E Vs nd H AB AG. inversion H; subst; clear H.
  match goal with Z : good2 _ _ _ _ _ _ _ _ |- _ => rename Z into G end.
  match goal with Z : false = false -> _ |- _ => specialize (Z eq_refl); rename Z into PF end.
  pose proof (absent_miss _ _ _ _ _ _ _ _ G AB) as AM. destruct G as [GC GL GP GD GV GN GM GR].
  apply J3_idle with (g := fun a => if word_num a =? K then m a else g a) (F := V) (P := P).
  - constructor; auto.
    + destruct GC as [U CO RP]. constructor; auto. intros w i o Hw Hi Ho LV LD. rewrite CO by auto.
      specialize (AM w i o Hw Hi Ho LV). apply N.eqb_neq in AM. rewrite AM. auto.
    + intros a HA M. rewrite view_clean.
      * apply mk_true in M. destruct M as [_ M]. rewrite M, N.eqb_refl. apply AG; auto. unfold mk. rewrite M, N.eqb_refl. auto.
      * intros w Hw. destruct (dirty_at p c w a) eqn:D; auto. exfalso.
        assert (DS : dset p c a = true) by (apply dset_true; eauto). rewrite <- GP in DS by auto.
        apply mk_true in M. destruct M as [_ M]. congruence.
  - intros a HA M. apply mk_true in M. destruct M as [_ M]. rewrite M, N.eqb_refl. auto.
  - apply agree_refl.
  - auto.
Qed.

(** *** Giving it up *)
Lemma answers_false : forall b ex g k ys, answers p (mk b) anyL k g ex ys -> answers p (mk false) anyL k g ex ys.
Proof.
  induction ex as [|e ex IH]; intros g k ys H; destruct ys; auto.
  destruct H as [(mu & _ & _ & X) H]. split; auto. exists mu. split; auto. split; auto using agr_false.
Qed.
Lemma J3_down : K * 4 < 2 ^ p_abw p -> forall w V a m rq rs A E Vs nd, J3 true w V a m rq rs A E Vs nd ->
  (forall l r, nth_error A l = Some r -> modifies p r K -> (l < nd)%nat) ->
  ~ dirty2 (firstn nd A) K -> J3 true false V a m rq rs A E Vs nd.
Proof.
  intros HK w V a m rq rs A E Vs nd H TO ND. inversion H; subst; clear H; match goal with Z : good2 _ _ _ _ _ _ _ _ |- _ => rename Z into G end.
  - rewrite firstn_all in ND.
    assert (PF : P K = false). { destruct (P K) eqn:E1; auto. exfalso. apply ND. apply (g2_dirt _ _ _ _ _ _ _ _ G); auto. }
    eapply J3_idle; eauto.
  - rewrite firstn_app, Nat.sub_diag, firstn_all in ND. cbn [firstn] in ND. rewrite app_nil_r in ND.
    assert (PF : P K = false). { destruct (P K) eqn:E1; auto. exfalso. apply ND. apply (g2_dirt _ _ _ _ _ _ _ _ G); auto. }
    assert (NM : modifies p r K -> false = true).
    { intros T. specialize (TO (length A0) r). rewrite nth_error_app2, Nat.sub_diag in TO by lia. specialize (TO eq_refl T). lia. }
    eapply J3_busy; eauto.
Qed.
Lemma J3_leave : forall b w V a m rq rs A E Vs nd, J3 b w V a m rq rs A E Vs nd ->
  (forall l r, nth_error A l = Some r -> touches p r K -> (l < nd)%nat) -> J3 false w V a m rq rs A E Vs nd.
Proof.
  intros b w V a m rq rs A E Vs nd H TO.
  assert (WG : forall A0 c g F Y Vs0 P, good2 b A0 c g F Y Vs0 P -> good2 false A0 c g F Y Vs0 P).
  { intros A0 c g F Y Vs0 P [G1 G2 G3 G4 G5 G6 G7 G8]. constructor; auto. intros x X M. discriminate M. }
  inversion H; subst; clear H.
  - eapply J3_idle; eauto using agr_false.
  - assert (NB : touches p r K -> false = true).
    { intros T. specialize (TO (length A0) r). rewrite nth_error_app2, Nat.sub_diag in TO by lia. specialize (TO eq_refl T). lia. }
    eapply J3_busy; eauto using agr_false, answers_false.
Qed.
(** while nobody may modify the word, memory is up to date *)
Lemma J3_clean : forall V a m rq rs A E Vs nd, J3 true false V a m rq rs A E Vs nd -> agree p (mk true) m V.
Proof.
  intros V a m rq rs A E Vs nd H.
  assert (WK : forall g c P F A0 Y Vs0 a, good2 true A0 c g F Y Vs0 P -> a < 2 ^ p_abw p -> word_num a = K -> P K = false -> trunc 8 (g a) = trunc 8 (F a)).
  { intros g c P F A0 Y Vs0 x G X XK PF. rewrite <- (g2_view _ _ _ _ _ _ _ _ G) by (auto; unfold mk; rewrite XK, N.eqb_refl; auto).
    symmetry. apply view_clean. intros w Hw. destruct (dirty_at p c w x) eqn:D; auto. exfalso.
    assert (DS : dset p c x = true) by (apply dset_true; eauto). rewrite <- (g2_pend _ _ _ _ _ _ _ _ G) in DS by auto. congruence. }
  inversion H; subst; clear H; match goal with Z : good2 _ _ _ _ _ _ _ _ |- _ => rename Z into G end;
    intros x X M; pose proof M as M'; apply mk_true in M'; destruct M' as [_ XK].
  - match goal with Z : agree p _ g m |- _ => rewrite <- (Z x X M) end.
    match goal with Z : agree p _ F V |- _ => rewrite <- (Z x X M) end. eauto.
  - match goal with Z : modifies p r K -> false = true |- _ => rename Z into NM end.
    assert (NA : ~ amo_word r K) by (intros Z; assert (false = true) by (apply NM; right; auto); discriminate).
    assert (NW : ~ write_word p r K) by (intros Z; assert (false = true) by (apply NM; left; auto); discriminate).
    match goal with Z : agree p _ (fst (mem_run p g ex)) m |- _ => rewrite <- (Z x X M) end.
    match goal with Z : agree p _ (fst (flat_exec p F r)) V |- _ => rewrite <- (Z x X M) end.
    match goal with Z : wf_req p r |- _ => rewrite (flat_keep p r F x Z); [|rewrite XK; auto..];
      pose proof (good2_benign _ _ _ _ _ _ _ _ r G Z) as BN end.
    match goal with Z : tl_reqs p c r = _ |- _ => rewrite Z in BN end. apply Forall_app in BN. destruct BN as [BN _].
    rewrite (benign_keep p P r); auto; rewrite ?XK; auto. eauto.
Qed.

Lemma J3_start : forall b w0 V c, clean_start p c -> J3 b w0 V (mkA c None []) V [] [] [] [] [] 0.
Proof.
  intros b w0 V c (C1 & C2). destruct (cinv_init p W c V C1) as [I VV]; auto.
  change 0%nat with (length (@nil creq)).
  apply J3_idle with (g := V) (F := V) (P := fun _ => false); [|apply agree_refl..|auto]. constructor; auto.
  - apply lru_init; auto.
  - intros a A. symmetry. apply not_true_iff_false. intros D. apply dset_true in D. destruct D as (w & Hw & D).
    apply dirty_at_inv in D. destruct D as [_ D]. unfold ldty in D.
    destruct (C1 w (a_idx p a) Hw (a_idx_lt p W a)) as [_ E]. rewrite E, N.bits_0 in D. discriminate.
  - intros k _ X. discriminate X.
  - intros n r y V' H. destruct n; discriminate H.
Qed.
Lemma J3_resp : forall b w V a m rq rs A E Vs nd l r y Vr, J3 b w V a m rq rs A E Vs nd ->
  nth_error A l = Some r -> nth_error E l = Some y -> nth_error Vs l = Some Vr -> resp2 Vr r y.
Proof.
  intros b w V a m rq rs A E Vs nd l r y Vr H N1 N2 N3. pose proof (J3_nd _ _ _ _ _ _ _ _ _ _ _ H) as [[L1 L2] _].
  assert (LL : (l < length E)%nat) by (apply nth_error_Some; congruence).
  inversion H; subst; clear H; match goal with Z : good2 _ _ _ _ _ _ _ _ |- _ => rename Z into G end.
  - eapply (g2_resp _ _ _ _ _ _ _ _ G); eauto. rewrite nth_error_app1; auto.
  - rewrite nth_error_app1 in N1 by lia. rewrite nth_error_app1 in N3 by (rewrite (g2_lenv _ _ _ _ _ _ _ _ G); lia).
    eapply (g2_resp _ _ _ _ _ _ _ _ G); eauto. rewrite nth_error_app1; auto.
Qed.
End D.
