(** Several caches over one memory: what main memory holds of the words of each
    owner when all caches are lost at an arbitrary moment. *)
From Coq Require Import Arith NArith List Bool Lia.
From Verif Require Import Bits Params Msg Units Rtl Mem Spec System Tl ParamsProofs RtlLemmas RefineInv RefineProofs
  UnitProofs ViewDefs ViewOps ViewProofs SysProofs SysFacts Traffic MetaProofs PendProofs TrafProofs Crash CrashMultiSpec MultiSys MultiProofs MultiFacts MultiMore.
Import ListNotations.
Open Scope N_scope.

Section One.
Variable p : params.
Hypothesis W : wf_params p.

(** [mm] holds [M] wherever nothing is pending. *)
Definition curm (M : mem) (P : N -> bool) (mm : mem) : Prop :=
  forall a, a < 2 ^ p_abw p -> P (word_num a) = false -> trunc 8 (mm a) = trunc 8 (M a).

Lemma cur_wb : forall M P mm q, curm M P mm -> wb_ok p P M q ->
  curm M (clear p P q) (fst (mem_exec p mm q)) /\
  same_line p (line_of p (mq_addr q)) (fst (mem_exec p mm q)) M /\
  (forall m' a, line_of p a <> line_of p (mq_addr q) -> fst (mem_exec p m' q) a = m' a).
Proof.
  intros M P mm q C [T [AL AB] LN _ MK DT]. pose proof (lb_pos p W) as LB. pose proof (lb_words p W) as LW.
  assert (EX : forall m' x, fst (mem_exec p m' q) x =
     if (mq_addr q <=? x) && (x <? mq_addr q + line_bytes p) && N.testbit (mq_mask q) ((x - mq_addr q) / 4)
     then gb (mq_data q) (x - mq_addr q) else m' x).
  { intros m' x. unfold mem_exec. rewrite T. change (T_WRITE =? T_READ) with false. change (T_WRITE =? T_WRITE) with true.
    cbn [fst]. rewrite wr_masked_spec, (clw_words p), <- LW. auto. }
  assert (IN : forall a, line_of p a = line_of p (mq_addr q) <-> mq_addr q <= a < mq_addr q + line_bytes p).
  { intros a. unfold line_of. pose proof (N.div_mod' (mq_addr q) (line_bytes p)) as D. rewrite AL, N.add_0_r in D.
    set (z := mq_addr q / line_bytes p) in *. clearbody z. split; intros H.
    - pose proof (N.div_mod' a (line_bytes p)) as D'. rewrite H in D'. pose proof (N.mod_lt a (line_bytes p) ltac:(lia)) as M'.
      set (w := a mod line_bytes p) in *. clearbody w. clear - D D' M'. lia.
    - symmetry. apply N.div_unique with (a - mq_addr q); lia. }
  assert (WN : forall o, word_num (mq_addr q + o) = word_num (mq_addr q) + o / 4).
  { intros o. unfold word_num. pose proof (N.div_mod' (mq_addr q) (line_bytes p)) as D. rewrite AL, N.add_0_r, LW in D.
    rewrite D. set (z := mq_addr q / (4 * dtyw p)). clearbody z.
    replace (4 * dtyw p * z) with ((dtyw p * z) * 4) by lia.
    rewrite N.div_add_l, N.div_mul by lia. auto. }
  assert (CUR : same_line p (line_of p (mq_addr q)) (fst (mem_exec p mm q)) M).
  { intros a HA HL. apply IN in HL. rewrite EX. set (o := a - mq_addr q).
    assert (EA : a = mq_addr q + o) by (unfold o; lia). assert (HO : o < line_bytes p) by (unfold o; lia).
    destruct (N.leb_spec (mq_addr q) a); [|lia]. destruct (N.ltb_spec a (mq_addr q + line_bytes p)); [|lia]. cbn [andb].
    destruct (N.testbit (mq_mask q) (o / 4)) eqn:B.
    - specialize (DT o HO B). unfold gb. rewrite DT, <- EA, trunc_small; auto. apply trunc_lt.
    - apply C; auto. rewrite EA, WN. rewrite MK in B.
      destruct (N.ltb_spec (o / 4) (p_clw p / 32)) as [Z|Z]; [auto|].
      exfalso. rewrite (clw_words p) in Z.
      assert (o / 4 < dtyw p) by (apply N.div_lt_upper_bound; [discriminate | rewrite <- LW; auto]).
      set (z := o / 4) in *. clearbody z. clear - Z H1. lia. }
  assert (OTH : forall m' a, line_of p a <> line_of p (mq_addr q) -> fst (mem_exec p m' q) a = m' a).
  { intros m' a HL. rewrite EX. destruct (N.leb_spec (mq_addr q) a); auto. destruct (N.ltb_spec a (mq_addr q + line_bytes p)); auto.
    exfalso. apply HL, IN. lia. }
  split; [|auto].
  intros a HA HP. destruct (N.eq_dec (line_of p a) (line_of p (mq_addr q))) as [E|E]; auto.
  rewrite OTH by auto. apply C; auto. unfold clear in HP. destruct (P (word_num a)) eqn:PA; auto.
  cbn [andb] in HP. exfalso. apply negb_false_iff in HP. unfold in_req in HP. apply andb_true_iff in HP. destruct HP as [H1 H2].
  apply N.leb_le in H1. apply N.ltb_lt in H2. apply E, IN.
  pose proof (WN 0) as W0. rewrite N.add_0_r in W0. pose proof (WN (line_bytes p)) as W1.
  rewrite (clw_words p) in H2. rewrite LW in W1 at 2. rewrite N.mul_comm, N.div_mul in W1 by discriminate.
  assert (B0 : mq_addr q mod 4 = 0).
  { pose proof (N.div_mod' (mq_addr q) (line_bytes p)) as D. rewrite AL, N.add_0_r, LW in D. rewrite D, <- N.mul_assoc, N.mul_comm.
    apply N.mod_mul. discriminate. }
  unfold word_num in *. pose proof (N.div_mod' a 4) as DA. pose proof (N.mod_lt a 4 ltac:(discriminate)) as MA.
  pose proof (N.div_mod' (mq_addr q) 4) as DQ. rewrite B0 in DQ. rewrite LW.
  set (u := a / 4) in *. set (v := mq_addr q / 4) in *. set (w := a mod 4) in *. clearbody u v w.
  clear - DA MA DQ H1 H2. lia.
Qed.
Lemma cur_wbs : forall wb M P mm, curm M P mm -> wbs_ok p P M wb -> curm M (clears p P wb) (fst (mem_run p mm wb)).
Proof.
  induction wb as [|q wb IH]; intros M P mm C H; [exact C|]. destruct H as [H1 H2].
  destruct (cur_wb _ _ _ _ C H1) as [C1 _]. cbn [mem_run]. destruct (mem_exec p mm q) as [m1 x].
  specialize (IH _ _ _ C1 H2). cbn [fst] in *. destruct (mem_run p m1 wb) as [m2 xs]. auto.
Qed.

(** What one request of a transaction can be. *)
Lemma traffic_cases : forall P L M r g ex e rest, req_traffic p P L M r g -> g = ex ++ e :: rest ->
  wbs_ok p P M ex /\
  (wb_ok p (clears p P ex) M e \/ mq_type e = T_READ \/
   (is_amo (cq_type r) = true /\ (forall k, k * 4 / line_bytes p = line_of p (cq_addr r) -> clears p P ex k = false) /\
    mq_type e = cq_type r /\ mq_addr e = cq_addr r /\ mq_data e = trunc (p_dbw p) (cq_data r) /\ rest = [])).
Proof.
  intros P L M r g ex e rest RT EG.
  assert (SPL : forall (g : list mreq) P0 ex e rest, wbs_ok p P0 M g -> g = ex ++ e :: rest -> wbs_ok p P0 M ex /\ wb_ok p (clears p P0 ex) M e).
  { induction g0 as [|x g0 IH]; intros P0 [|y ex0] e0 rest0 H E; cbn [app] in E; inversion E; subst.
    - destruct H. split; [exact I | auto].
    - destruct H as [H1 H2]. destruct (IH _ _ _ _ H2 eq_refl) as [I1 I2]. split; [split; auto | auto]. }
  assert (LAST : forall (wb : list mreq) q, ex ++ e :: rest = wb ++ [q] -> wbs_ok p P M wb ->
     (wbs_ok p P M ex /\ wb_ok p (clears p P ex) M e) \/ (ex = wb /\ e = q /\ rest = [])).
  { intros wb q E WB. destruct rest as [|z rest] using rev_ind.
    - apply app_inj_tail in E. destruct E. auto.
    - clear IHrest. left. change (e :: rest ++ [z]) with ((e :: rest) ++ [z]) in E. rewrite app_assoc in E.
      apply app_inj_tail in E. destruct E as [E _]. apply (SPL wb P ex e rest); auto. }
  unfold req_traffic in RT. destruct (rw_req r).
  - destruct (in_dec _ _ _); [subst g; destruct ex; discriminate|].
    destruct RT as (wb & q & E & WB & _ & _ & QT & _). rewrite E in EG. symmetry in EG.
    destruct (LAST _ _ EG WB) as [[A B] | (-> & -> & _)]; split; auto.
  - destruct (is_amo (cq_type r)) eqn:IA.
    + destruct RT as (wb & q & E & WB & _ & _ & CL & QT & _ & QA & _ & QD). rewrite E in EG. symmetry in EG.
      destruct (LAST _ _ EG WB) as [[A B] | (-> & -> & RE)]; split; auto.
      right. right. auto 6.
    + destruct (cq_type r =? T_FLUSH); [|subst g; destruct ex; discriminate].
      destruct RT as [WB _]. destruct (SPL _ _ _ _ _ WB EG). auto.
Qed.
(** Lines a durable request leaves without pending words. *)
Lemma durable_clean : forall P L M r g l a, req_traffic p P L M r g -> durable p l r -> a < 2 ^ p_abw p -> line_of p a = l ->
  mark p (clears p P (writes g)) r (word_num a) = false.
Proof.
  intros P L M r g l a RT D HA HL.
  assert (NR : rw_req r = false).
  { unfold rw_req. destruct D as [D | [D _]]; [rewrite D; auto|].
    apply orb_false_iff. split; apply N.eqb_neq; intros E; rewrite E in D; discriminate D. }
  assert (NW : (cq_type r =? T_WRITE) = false).
  { unfold rw_req in NR. apply orb_false_iff in NR. apply NR. }
  unfold mark. rewrite NW. unfold req_traffic in RT. rewrite NR in RT.
  pose proof (lb_words p W) as LW. pose proof (dty_pos p W) as DP.
  destruct (is_amo (cq_type r)) eqn:IA.
  - destruct RT as (wb & q & -> & WB & _ & _ & CL & TQ & _).
    assert (EW : writes (wb ++ [q]) = wb).
    { unfold writes. rewrite filter_app. fold (writes wb). rewrite (wbs_writes _ _ _ _ WB). cbn [filter]. unfold is_write.
      rewrite TQ, NW. apply app_nil_r. }
    rewrite EW. destruct D as [D | [_ D]]; [rewrite D in IA; discriminate IA|].
    apply CL. rewrite D, <- HL. unfold word_num, line_of. rewrite LW. rewrite <- !N.div_div by lia. rewrite N.div_mul by discriminate. auto.
  - destruct D as [D | [D _]]; [|congruence]. rewrite D in RT. change (T_FLUSH =? T_FLUSH) with true in RT. cbv iota in RT. destruct RT as [WB CL].
    rewrite (wbs_writes _ _ _ _ WB). apply CL. pose proof (word_mul4 a). lia.
Qed.

Variable m0 : mem.
Variable mine : N -> bool.
Definition samew (l : N) (m m' : mem) : Prop :=
  forall a, a < 2 ^ p_abw p -> line_of p a = l -> mine (word_num a) = true -> trunc 8 (m a) = trunc 8 (m' a).

(** Execution of one request of this cache. *)
Lemma J2_crash : forall Log a m q rq rs acc E, J2 p m0 mine Log a m (q :: rq) rs acc E ->
  agree p mine m (fst (mem_exec p m q)) \/
  exists l k, (length E + length (a_pend a) <= k <= length acc)%nat /\
    samew l (fst (mem_exec p m q)) (flat_mem p m0 (firstn k acc)) /\
    (forall x, line_of p x <> l -> fst (mem_exec p m q) x = m x) /\
    (k = (length E + length (a_pend a))%nat \/ rq = [] /\ match a_cur a with Some u => u_todo u = [] | None => True end).
Proof.
  intros Log a m q rq rs acc E H. inversion H; subst; clear H. cbn [a_pend].
  match goal with F : Forall2 (mreq_match r) qs _ |- _ => inversion F as [|e ? qs' ? M1 M2]; subst; clear F end.
  match goal with Z : tl_reqs p c r = _ |- _ => rename Z into TR end.
  match goal with Z : good _ _ _ _ _ _ _ _ _ |- _ => rename Z into G end.
  match goal with Z : wf_req p r |- _ => rename Z into WF end.
  match goal with Z : agree p mine _ m |- _ => rename Z into AG end.
  pose proof (good_benign p W m0 mine Log _ _ _ _ _ r G WF) as BN.
  rewrite TR in BN. apply Forall_app in BN. destruct BN as [_ BN]. inversion BN as [|? ? B1 _]; subst.
  assert (EQ : forall m, fst (mem_exec p m q) = fst (mem_exec p m e)) by (intros; symmetry; apply (mem_exec_sim p _ r e q M1)).
  pose proof (gd_len _ _ _ _ _ _ _ _ _ G) as GL. rewrite app_length in GL.
  destruct (traf_step p W c g P (lru_run p lru_empty A) (view p c g) r 0 (gd_inv _ _ _ _ _ _ _ _ _ G)
    (gd_pend _ _ _ _ _ _ _ _ _ G) (gd_lru _ _ _ _ _ _ _ _ _ G)) as [RT _]; auto.
  cbn [app] in TR. destruct (traffic_cases _ _ _ _ _ _ _ _ RT TR) as [WBS CS].
  set (M := view p c g) in *.
  assert (C0 : curm M P g).
  { intros x X PX. unfold M. rewrite view_clean; [symmetry; apply trunc_small; apply trunc_lt|].
    intros w Hw. destruct (dirty_at p c w x) eqn:D; auto. exfalso.
    assert (DS : dset p c x = true) by (apply dset_true; eauto).
    rewrite <- (gd_pend _ _ _ _ _ _ _ _ _ G) in DS by auto. congruence. }
  pose proof (cur_wbs _ _ _ _ C0 WBS) as C1. set (mm := fst (mem_run p g ex)) in *.
  assert (AG' : agree p mine (fst (mem_exec p mm e)) (fst (mem_exec p m e))) by (eapply benign_agree; eauto).
  assert (VM : forall x, x < 2 ^ p_abw p -> mine (word_num x) = true -> trunc 8 (M x) = trunc 8 (flat_mem p m0 A x)).
  { intros x X MX. unfold M. rewrite (gd_view _ _ _ _ _ _ _ _ _ G) by auto. apply trunc_small. apply trunc_lt. }
  rewrite EQ. destruct CS as [WB | [RD | (IA & CL & QT & QA & QD & RE)]].
  - (* a write-back *)
    right. destruct (cur_wb _ _ _ _ C1 WB) as (_ & SL & OT). exists (line_of p (mq_addr e)), (length A).
    split; [rewrite app_length; cbn; lia|]. split; [|split; [intros x X; apply OT; auto | left; lia]].
    intros x X LX MX. rewrite <- AG' by auto. rewrite SL, VM by auto.
    rewrite firstn_app, Nat.sub_diag, firstn_all. cbn [firstn]. rewrite app_nil_r. auto.
  - (* a line fetched *)
    left. intros x X MX. unfold mem_exec. rewrite RD. auto.
  - (* an AMO *)
    right. exists (line_of p (cq_addr r)), (length A + 1)%nat.
    split; [rewrite app_length; cbn; lia|].
    assert (TY : (cq_type r =? T_READ) = false /\ (cq_type r =? T_WRITE) = false).
    { split; apply N.eqb_neq; intros Z; rewrite Z in IA; discriminate IA. }
    destruct TY as [T1 T2].
    assert (AM : cq_addr r mod 4 = 0).
    { destruct WF as (_ & _ & [(Z & _) | [(Z & _) | [(_ & Z & _) | [Z | Z]]]]); auto; rewrite Z in IA; discriminate IA. }
    pose proof WF as (HA & _).
    assert (DV : forall k, k < 4 -> cq_addr r + k < 2 ^ p_abw p /\ line_of p (cq_addr r + k) = line_of p (cq_addr r) /\
                            word_num (cq_addr r + k) = word_num (cq_addr r)).
    { intros k K. destruct (off_aligned p (cq_addr r) 2) as [_ OF]; [pose proof (offw_ge3 p W); lia | auto |].
      change (2 ^ 2) with 4 in OF.
      destruct (addr_add p W (cq_addr r) k HA) as (B1' & B2 & B3 & B4); [lia|]. split; auto. split.
      - rewrite !(line_eq p W), B2, B3 by auto. auto.
      - unfold word_num. pose proof (N.div_mod' (cq_addr r) 4) as D. rewrite AM in D.
        symmetry. apply N.div_unique with k; auto. lia. }
    assert (PL : forall x, line_of p x = line_of p (cq_addr r) -> clears p P ex (word_num x) = false).
    { intros x HL. apply CL. rewrite <- HL. pose proof (lb_words p W) as LW. unfold word_num, line_of. rewrite LW.
      pose proof (dty_pos p W) as DP. rewrite <- !N.div_div by lia. rewrite N.div_mul by discriminate. auto. }
    assert (CU : forall x, x < 2 ^ p_abw p -> line_of p x = line_of p (cq_addr r) -> mine (word_num x) = true ->
        trunc 8 (mm x) = trunc 8 (flat_mem p m0 A x)).
    { intros x X LX MX. rewrite C1; auto. }
    assert (DD : slice (trunc (p_dbw p) (cq_data r)) 0 32 = trunc 32 (cq_data r)).
    { assert (D32 : 32 <= p_dbw p) by (destruct (wf_dbw p W) as [K | [K | K]]; rewrite K; lia). apply N.bits_inj. intros b. rewrite testbit_slice, !testbit_trunc, N.sub_0_r, N.add_0_r.
      destruct (N.ltb_spec b 32); auto. destruct (N.ltb_spec b (p_dbw p)); auto. lia. }
    split.
    + intros x X LX MX. rewrite <- AG' by auto.
      rewrite firstn_all2 by (rewrite app_length; cbn; lia). rewrite flat_mem_app. cbn [flat_mem].
      unfold mem_exec, flat_exec. rewrite QT, T1, T2, IA, QA, QD, DD. cbn [fst]. unfold wr_bytes. change (N.of_nat 4) with 4.
      destruct (N.leb_spec (cq_addr r) x) as [L1|L1]; [|apply CU; auto]. destruct (N.ltb_spec x (cq_addr r + 4)) as [L2|L2]; [|apply CU; auto].
      cbn [andb]. f_equal. f_equal. f_equal.
      apply rd_ext. intros k K. change (N.of_nat 4) with 4 in K. destruct (DV k K) as (D1 & D2 & D3). apply CU; auto.
      rewrite D3. destruct (DV (x - cq_addr r)) as (_ & _ & D4); [lia|]. replace (cq_addr r + (x - cq_addr r)) with x in D4 by lia.
      rewrite <- D4. auto.
    + split; [|right; cbn [a_cur u_todo]; apply app_eq_nil in RE; destruct RE as [-> ->]; inversion M2; subst; auto].
      intros x NE. unfold mem_exec. rewrite QT, T1, T2, QA. cbn [fst]. unfold wr_bytes. change (N.of_nat 4) with 4.
      destruct (N.leb_spec (cq_addr r) x) as [L1|L1]; auto. destruct (N.ltb_spec x (cq_addr r + 4)) as [L2|L2]; auto.
      exfalso. apply NE. replace x with (cq_addr r + (x - cq_addr r)) by lia. apply DV. lia.
Qed.

(** Every line is as after some number of requests, past the durable ones among
    the first [n]. *)
Definition kept (acc : list creq) (n : nat) (mm : mem) : Prop := forall l, exists k, (k <= length acc)%nat /\
  samew l mm (flat_mem p m0 (firstn k acc)) /\
  forall j r, (j < n)%nat -> nth_error acc j = Some r -> durable p l r -> (j < k)%nat.
Definition doneA (a : ast) (E : list cresp) : nat := (length E + length (a_pend a))%nat.

Lemma J2_done_count : forall Log a m rq rs acc E, J2 p m0 mine Log a m rq rs acc E -> (doneA a E <= length acc)%nat /\
  (a_cur a = None -> doneA a E = length acc).
Proof.
  intros Log a m rq rs acc E H. inversion H; subst; clear H; unfold doneA; cbn [a_pend a_cur].
  - match goal with Z : good _ _ _ _ _ _ _ _ _ |- _ => pose proof (gd_len _ _ _ _ _ _ _ _ _ Z) as GL end. rewrite app_length in GL. split; [lia | auto].
  - match goal with Z : good _ _ _ _ _ _ _ _ _ |- _ => pose proof (gd_len _ _ _ _ _ _ _ _ _ Z) as GL end. rewrite app_length in *.
    split; [lia | discriminate].
Qed.
Lemma kept_exec : forall Log a m q rq rs acc E, J2 p m0 mine Log a m (q :: rq) rs acc E -> kept acc (doneA a E) m ->
  kept acc (doneA a E) (fst (mem_exec p m q)).
Proof.
  intros Log a m q rq rs acc E H K l. destruct (K l) as (k & LK & SK & DK).
  destruct (J2_crash _ _ _ _ _ _ _ _ H) as [AG | (l' & k' & LK' & SK' & OT & _)].
  - exists k. split; auto. split; auto. intros a' A1 A2 A3. rewrite <- AG; auto.
  - destruct (N.eq_dec l l') as [->|NE].
    + exists k'. split; [lia|]. split; auto. intros j r J. unfold doneA in J. lia.
    + exists k. split; auto. split; auto. intros x A1 A2 A3. rewrite OT by congruence. auto.
Qed.
Lemma kept_other : forall acc n m m', kept acc n m -> agree p mine m m' -> kept acc n m'.
Proof.
  intros acc n m m' K AG l. destruct (K l) as (k & LK & SK & DK). exists k. split; auto. split; auto.
  intros a A1 A2 A3. rewrite <- AG by auto. auto.
Qed.
Lemma kept_app : forall acc n m r, kept acc n m -> (n <= length acc)%nat -> kept (acc ++ [r]) n m.
Proof.
  intros acc n m r K LN l. destruct (K l) as (k & LK & SK & DK). exists k. split; [rewrite app_length; lia|]. split.
  - rewrite firstn_app. replace (k - length acc)%nat with 0%nat by lia. cbn [firstn]. rewrite app_nil_r. auto.
  - intros j x J E. apply DK; auto. rewrite nth_error_app1 in E by lia. auto.
Qed.
Lemma durable_dec : forall l r, durable p l r \/ ~ durable p l r.
Proof.
  intros l r. unfold durable. destruct (N.eq_dec (cq_type r) T_FLUSH); [left; auto|].
  destruct (is_amo (cq_type r)); [|right; intros [H | [H _]]; [auto | discriminate]].
  destruct (N.eq_dec (line_of p (cq_addr r)) l); [left; auto | right; intros [H | [_ H]]; auto].
Qed.
Lemma kept_done : forall Log a m rq rs acc E a', J2 p m0 mine Log a m rq rs acc E -> a_done p a a' -> kept acc (doneA a E) m ->
  kept acc (doneA a' E) m.
Proof.
  intros Log a m rq rs acc E a' H D K.
  pose proof (J2_done p W m0 mine _ _ _ _ _ _ _ _ H D) as H'.
  inversion D; subst. inversion H; subst.
  match goal with Z : good _ _ _ _ _ _ _ _ _ |- _ => rename Z into G end.
  match goal with Z : wf_req p r |- _ => rename Z into WF end.
  destruct (traf_step p W c g P (lru_run p lru_empty A) (view p c g) r (last_data got) (gd_inv _ _ _ _ _ _ _ _ _ G)
    (gd_pend _ _ _ _ _ _ _ _ _ G) (gd_lru _ _ _ _ _ _ _ _ _ G)) as [RT PE]; auto.
  pose proof (gd_len _ _ _ _ _ _ _ _ _ G) as GL. rewrite app_length in GL.
  unfold doneA in *. cbn [a_pend] in *. rewrite app_length. cbn [length].
  intros l. destruct (durable_dec l r) as [DU|ND].
  - exists (length (A ++ [r])). split; auto. rewrite firstn_all. split.
    + inversion H'; subst. intros x X LX MX.
      match goal with Z : good _ _ _ _ _ _ (fst (tl_fin _ _ _ _)) _ _ |- _ => idtac | Z : good _ _ _ _ (A ++ [r]) _ _ _ _ |- _ => rename Z into G' end.
      match goal with Z : agree p mine _ m |- _ => idtac end.
      pose proof (gd_view _ _ _ _ _ _ _ _ _ G' x X MX) as V. rewrite view_clean in V.
      * match goal with Z : agree p mine g0 m |- _ => rewrite <- Z by auto end. auto.
      * intros w Hw. destruct (dirty_at p _ w x) eqn:DA; auto. exfalso.
        assert (DS : dset p (fst (tl_fin p c r (last_data got))) x = true) by (apply dset_true; eauto).
        rewrite <- PE in DS by auto. rewrite (durable_clean _ _ _ _ _ _ _ RT DU X LX) in DS. discriminate.
    + intros j x J E1 _. rewrite app_length. cbn. lia.
  - destruct (K l) as (k & LK & SK & DK). exists k. split; auto. split; auto.
    intros j x J E1 DJ. destruct (Nat.eq_dec j (length A)) as [->|NE].
    + rewrite nth_error_app2, Nat.sub_diag in E1 by lia. cbn in E1. inversion E1; subst. contradiction.
    + apply (DK j x); auto. lia.
Qed.

Lemma kept_cycle : forall Log a m rq rs acc E i o a', J2 p m0 mine Log a m rq rs acc E -> acyc p a i o a' ->
  (i_mresp_en i = true -> exists l, rs = i_mresp i :: l) -> kept acc (doneA a E) m ->
  kept (acc ++ (if i_req_en i then [i_req i] else [])) (doneA a' (E ++ opt_list (o_resp o))) m.
Proof.
  intros Log a m rq rs acc E i o a' H (a1 & a2 & a3 & C1 & C2 & C3 & C4) R1 K.
  set (rs1 := if i_mresp_en i then List.tl rs else rs).
  assert (H1 : J2 p m0 mine Log a1 m rq rs1 acc E /\ kept acc (doneA a1 E) m).
  { unfold o_recv, rs1 in *. destruct (i_mresp_en i).
    - destruct (R1 eq_refl) as (l & ->). cbn [List.tl]. split; [eapply J2_recv; eauto|]. inversion C1; subst. exact K.
    - subst; auto. }
  destruct H1 as [H1 K1].
  assert (H2 : J2 p m0 mine Log a2 m (rq ++ opt_list (o_mreq o)) rs1 acc (E ++ opt_list (o_resp o)) /\ kept acc (doneA a2 (E ++ opt_list (o_resp o))) m).
  { unfold o_send in C2. destruct (o_mreq o), (o_resp o); cbn [opt_list]; rewrite ?app_nil_r; try contradiction.
    - split; [eapply J2_send; eauto|]. inversion C2; subst. exact K1.
    - split; [eapply J2_emit; eauto|]. inversion C2; subst. unfold doneA in *. cbn [a_pend length] in *. rewrite app_length. cbn [length].
      replace (length E + 1 + length pd)%nat with (length E + S (length pd))%nat by lia. exact K1.
    - subst; auto. }
  destruct H2 as [H2 K2].
  assert (H3 : J2 p m0 mine Log a3 m (rq ++ opt_list (o_mreq o)) rs1 acc (E ++ opt_list (o_resp o)) /\ kept acc (doneA a3 (E ++ opt_list (o_resp o))) m).
  { destruct C3 as [C3 | ->]; auto. split; [eapply J2_done; eauto | eapply kept_done; eauto]. }
  destruct H3 as [H3 K3].
  unfold o_acc in C4. destruct (i_req_en i).
  - destruct (J2_done_count _ _ _ _ _ _ _ H3) as [LD _]. apply (kept_app _ _ _ (i_req i)) in K3; auto. inversion C4; subst. exact K3.
  - subst. rewrite app_nil_r. auto.
Qed.
End One.

Section Many.
Variable p : params.
Variable sz : nat -> N * N.
Variable n : nat.
Hypothesis W : wf_caches p sz n.
Notation pp := (sized p sz).
Variable owner : N -> option nat.
Variable s0 : nat -> st.
Variable m0 : mem.

Lemma multi_kept : forall ts m rq rs, mmem p n m0 no_reqs no_resps ts m rq rs -> caches p sz n owner s0 ts ->
  forall i c0 a, (i < n)%nat -> clean_start (pp i) c0 -> aruns (pp i) (mkA c0 None []) (proj i ts) a ->
  kept (pp i) m0 (mineb owner i) (accepted (proj i ts)) (doneA a (responses (proj i ts))) m.
Proof.
  intros ts m rq rs H. induction H as [|ts m rq rs j q l H IH L E | ts m rq rs t H IH D]; intros C i c0 a I CS AR.
  - cbn [proj map] in AR. inversion AR; subst. intros l. exists 0%nat. split; auto. split; [intros x _ _ _; auto|].
    cbn. intros; lia.
  - specialize (IH C i c0 a I CS AR).
    destruct (Nat.eq_dec i j) as [->|NE].
    + pose proof (multi_inv p sz n W owner s0 m0 _ _ _ _ H C j c0 a I CS AR) as JI. rewrite E in JI.
      change (mem_exec p m q) with (mem_exec (pp j) m q). eapply kept_exec; eauto.
    + eapply kept_other; eauto. intros x X M. apply mineb_true in M.
      f_equal. symmetry.
      destruct (multi_ast p sz n W owner s0 m0 _ _ _ _ H C j L) as (cj & aj & CSj & ARj).
      pose proof (multi_inv p sz n W owner s0 m0 _ _ _ _ H C j cj aj L CSj ARj) as JJ. rewrite E in JJ.
      apply (J2_touch (pp j) (W j L) m0 (mineb owner j) _ _ _ _ _ _ _ _ x JJ X).
      * left. destruct (mineb owner j (word_num x)) eqn:B; auto. apply mineb_true in B. congruence.
      * intros r IN AW. destruct (C j L) as (_ & _ & _ & RS). rewrite Forall_forall in RS. destruct (RS r IN) as [_ R2].
        destruct (R2 _ AW); congruence.
  - pose proof (caches_app p sz n owner s0 _ _ C) as C'.
    rewrite !proj_app in *. cbn [proj map] in *. rewrite accepted_app, responses_app.
    rewrite (surjective_pairing (t i)) in AR. apply aruns_snoc in AR. destruct AR as (a1 & A1 & A2).
    pose proof (multi_inv p sz n W owner s0 m0 _ _ _ _ H C' i c0 a1 I CS A1) as JI.
    assert (EA : accepted [t i] = if i_req_en (fst (t i)) then [i_req (fst (t i))] else []).
    { unfold accepted. cbn [flat_map]. rewrite app_nil_r. auto. }
    assert (ER : responses [t i] = opt_list (o_resp (snd (t i)))).
    { unfold responses. cbn [flat_map]. rewrite app_nil_r. auto. }
    fold (proj i ts). rewrite EA, ER. eapply kept_cycle; eauto.
Qed.

Theorem multi_crash : forall ts m rq rs i l, multi_run p sz n owner s0 ts m0 m rq rs -> (i < n)%nat ->
  let A := accepted (proj i ts) in
  exists k, (k <= length A)%nat /\ same_own p owner i l m (flat_mem p m0 (firstn k A)) /\
    forall j r, (j < length (responses (proj i ts)))%nat -> nth_error A j = Some r -> durable p l r -> (j < k)%nat.
Proof.
  intros ts m rq rs i l R I A. apply run_caches in R. destruct R as [C H].
  destruct (multi_ast p sz n W owner s0 m0 _ _ _ _ H C i I) as (c0 & a & CS & AR).
  destruct (multi_kept _ _ _ _ H C i c0 a I CS AR l) as (k & LK & SK & DK).
  exists k. split; auto. split.
  - intros x X LX OW. apply SK; auto. apply mineb_true. auto.
  - intros j r J N1 DU. apply (DK j r); auto. unfold doneA. lia.
Qed.
End Many.

(** Histories of cache [i] from memories that agree on its words. *)
Section Ext.
Variable p : params.
Hypothesis W : wf_params p.
Variable mine : N -> bool.
Lemma amo_bytes : forall r, wf_req p r -> is_amo (cq_type r) = true -> forall k, k < 4 ->
  cq_addr r + k < 2 ^ p_abw p /\ word_num (cq_addr r + k) = word_num (cq_addr r).
Proof.
  intros r WF IA k K.
  assert (AM : cq_addr r mod 4 = 0).
  { destruct WF as (_ & _ & [(Z & _) | [(Z & _) | [(_ & Z & _) | [Z | Z]]]]); auto; rewrite Z in IA; discriminate IA. }
  pose proof WF as (HA & _). destruct (off_aligned p (cq_addr r) 2) as [_ OF]; [pose proof (offw_ge3 p W); lia | auto |].
  change (2 ^ 2) with 4 in OF. destruct (addr_add p W (cq_addr r) k HA) as (B1 & _); [lia|]. split; auto.
  unfold word_num. pose proof (N.div_mod' (cq_addr r) 4) as D. rewrite AM in D. symmetry. apply N.div_unique with k; auto. lia.
Qed.
Lemma agree_exec : forall m m' r, agree p mine m m' -> wf_req p r -> agree p mine (fst (flat_exec p m r)) (fst (flat_exec p m' r)).
Proof.
  intros m m' r AG WF x X MX. unfold flat_exec. destruct (cq_type r =? T_READ); [apply AG; auto|].
  destruct (cq_type r =? T_WRITE).
  { cbn [fst]. unfold wr_bytes. destruct (_ && _); auto. }
  destruct (is_amo (cq_type r)) eqn:IA; [|apply AG; auto]. cbn [fst]. unfold wr_bytes. change (N.of_nat 4) with 4.
  destruct (N.leb_spec (cq_addr r) x) as [L1|L1]; [|apply AG; auto]. destruct (N.ltb_spec x (cq_addr r + 4)) as [L2|L2]; [|apply AG; auto].
  cbn [andb]. f_equal. f_equal. f_equal. apply rd_ext. intros k K. change (N.of_nat 4) with 4 in K.
  destruct (amo_bytes r WF IA k K) as [D1 D2]. apply AG; auto. rewrite D2.
  destruct (amo_bytes r WF IA (x - cq_addr r)) as [_ D3]; [lia|]. replace (cq_addr r + (x - cq_addr r)) with x in D3 by lia. rewrite <- D3. auto.
Qed.
Lemma agree_mem : forall A m m', agree p mine m m' -> Forall (wf_req p) A -> agree p mine (flat_mem p m A) (flat_mem p m' A).
Proof.
  induction A as [|r A IH]; intros m m' AG F; auto. inversion F; subst. cbn [flat_mem]. apply IH; auto. apply agree_exec; auto.
Qed.
Lemma agree_data : forall m m' r, agree p mine m m' -> wf_req p r ->
  (cq_type r = T_READ -> forall j, j < req_bytes p r -> mine (word_num (cq_addr r + j)) = true) ->
  (is_amo (cq_type r) = true -> mine (word_num (cq_addr r)) = true) ->
  snd (flat_exec p m r) = snd (flat_exec p m' r).
Proof.
  intros m m' r AG WF OR OA. unfold flat_exec. destruct (N.eqb_spec (cq_type r) T_READ) as [TR|TR].
  { cbn [snd]. apply rd_ext. intros k K. rewrite N2Nat.id in K. apply AG; auto.
    assert (RD : wf_read p r).
    { destruct WF as (_ & _ & [Z | [Z | [Z | [Z | Z]]]]); auto.
      - destruct Z as [Z _]. rewrite TR in Z. discriminate.
      - destruct Z as [Z _]. rewrite TR in Z. exfalso. revert Z. vm_compute. intros [Z _]. apply Z. auto.
      - rewrite TR in Z. discriminate.
      - rewrite TR in Z. discriminate. }
    pose proof (req_in_range p W r WF (or_introl RD)). lia. }
  destruct (cq_type r =? T_WRITE); auto. destruct (is_amo (cq_type r)) eqn:IA; auto. cbn [snd].
  apply rd_ext. intros k K. change (N.of_nat 4) with 4 in K. destruct (amo_bytes r WF IA k K) as [D1 D2]. apply AG; auto. rewrite D2. auto.
Qed.
End Ext.

(** Two sessions with all caches lost in between, the first ended cleanly by cache [i]. *)
Section Sessions.
Variable p : params.
Variables z z2 : nat -> N * N.
Variable n : nat.
Hypothesis W : wf_caches p z n.
Hypothesis W2 : wf_caches p z2 n.

Lemma multi_clean : forall owner s0 ts m0 m rq rs i A f, multi_run p z n owner s0 ts m0 m rq rs -> (i < n)%nat ->
  accepted (proj i ts) = A ++ [f] -> cq_type f = T_FLUSH -> length (responses (proj i ts)) = length (accepted (proj i ts)) ->
  agree p (mineb owner i) (flat_mem p m0 (accepted (proj i ts))) m.
Proof.
  intros owner s0 ts m0 m rq rs i A f R I EA TF EL x X MX. apply mineb_true in MX.
  destruct (multi_crash p z n W owner s0 m0 ts m rq rs i (line_of p x) R I) as (k & LK & SK & DK).
  assert (k = length (accepted (proj i ts))).
  { specialize (DK (length A) f). rewrite EL, EA, app_length in DK. cbn in DK.
    rewrite nth_error_app2, Nat.sub_diag in DK by lia. rewrite EA, app_length in *. cbn in *.
    assert (length A < k)%nat; [|lia]. apply DK; auto; [lia|]. left; auto. }
  subst k. rewrite firstn_all in SK. symmetry. apply SK; auto.
Qed.
Theorem multi_sessions : forall owner s0 ts m0 m rq rs s1 ts2 m2 rq2 rs2 i A f k r y,
  multi_run p z n owner s0 ts m0 m rq rs -> multi_run p z2 n owner s1 ts2 m m2 rq2 rs2 -> (i < n)%nat ->
  accepted (proj i ts) = A ++ [f] -> cq_type f = T_FLUSH -> length (responses (proj i ts)) = length (accepted (proj i ts)) ->
  nth_error (accepted (proj i ts2)) k = Some r -> nth_error (responses (proj i ts2)) k = Some y ->
  (cq_type r = T_READ -> forall j, j < req_bytes p r -> owner (word_num (cq_addr r + j)) = Some i) ->
  (is_amo (cq_type r) = true -> owner (word_num (cq_addr r)) = Some i) ->
  cr_data y = snd (flat_exec p (flat_mem p m0 (accepted (proj i ts) ++ firstn k (accepted (proj i ts2)))) r).
Proof.
  intros owner s0 ts m0 m rq rs s1 ts2 m2 rq2 rs2 i A f k r y R1 R2 I EA TF EL N1 N2 OR OA.
  pose proof (multi_clean _ _ _ _ _ _ _ _ _ _ R1 I EA TF EL) as AG.
  destruct (multi_own p z2 n W2 owner s1 ts2 m m2 rq2 rs2 i k r y R2 I N1 N2 OR OA) as (_ & _ & _ & ->).
  rewrite flat_mem_app.
  destruct R2 as [C _]. destruct (C i I) as (_ & _ & CL & _). apply accepted_wf in CL.
  assert (WR : wf_req p r) by (rewrite Forall_forall in CL; apply CL; eapply nth_error_In; eauto).
  symmetry. apply (agree_data (sized p z i) (W i I) (mineb owner i)); auto.
  - apply (agree_mem (sized p z i) (W i I)); auto.
    rewrite <- (firstn_skipn k (accepted (proj i ts2))) in CL. apply Forall_app in CL. apply CL.
  - intros TR j J. apply mineb_true. auto.
  - intros IA. apply mineb_true. auto.
Qed.
End Sessions.
