(** AMOs of several caches on a word that nobody WRITEs, whatever else the caches
    do, are executed one at a time (C43). *)
From Coq Require Import Arith NArith List Bool Lia.
From Verif Require Import Bits Params Msg Units Rtl Mem Spec System Tl ParamsProofs RefineInv RefineProofs
  UnitProofs ViewDefs ViewOps ViewProofs SysProofs SysFacts Facts1 Facts2 Facts3 Facts4 Traffic MetaProofs PendProofs TrafProofs
  MemFacts Hide Proto MultiSys MultiProofs MultiFacts MultiMore MultiAmo DynSpec DynProofs DynFacts.
Import ListNotations.
Open Scope N_scope.

(** A word number beyond the address space: no request touches it. *)
Section B.
Variable p : params.
Hypothesis W : wf_params p.
Definition far : N := 2 ^ p_abw p.
Lemma far_touch : forall r, wf_req p r -> ~ touches p r far.
Proof.
  intros r WF H. assert (HW : forall a, a < 2 ^ p_abw p -> word_num a < far).
  { intros a A. unfold word_num, far. apply N.le_lt_trans with a; auto. apply N.div_le_upper_bound; lia. }
  pose proof WF as (HA & _). destruct H as [(T & _ & L) | (IA & E)].
  - assert (X : cq_addr r + req_bytes p r - 1 < 2 ^ p_abw p).
    { assert (RW : rw_req r = true) by (unfold rw_req; destruct T as [-> | ->]; reflexivity).
      pose proof (req_in_range p W r WF (rw_cases p r WF RW)). lia. }
    apply HW in X. lia.
  - apply HW in HA. lia.
Qed.

Lemma J3_touch_na : forall V a m q rq rs A E Vs nd x, J3 p far false true V a m (q :: rq) rs A E Vs nd -> x < 2 ^ p_abw p ->
  (forall r, In r A -> ~ write_word p r (word_num x)) -> is_amo (mq_type q) = false -> fst (mem_exec p m q) x = m x.
Proof.
  intros V a m q rq rs A E Vs nd x H X M NA. inversion H; subst; clear H.
  match goal with F : Forall2 (mreq_match r) qs _ |- _ => inversion F as [|e ? qs' ? M1 M2]; subst; clear F end.
  match goal with Z : tl_reqs p c r = _ |- _ => rename Z into TR end.
  match goal with Z : good2 _ _ _ _ _ _ _ _ _ _ |- _ => rename Z into G end.
  assert (BN : Forall (fun q => is_amo (mq_type q) = false -> benign p P nobody q) (tl_reqs p c r)).
  { destruct (traf_step p W c g P (lru_run p lru_empty A0) (view p c g) r 0 (g2_inv _ _ _ _ _ _ _ _ _ _ G)
      (g2_pend _ _ _ _ _ _ _ _ _ _ G) (g2_lru _ _ _ _ _ _ _ _ _ _ G)) as [T _]; auto. eapply exec_traffic_na; eauto. }
  rewrite TR in BN. apply Forall_app in BN. destruct BN as [_ BN]. inversion BN as [|? ? B1 _]; subst.
  assert (NE : is_amo (mq_type e) = false) by (destruct M1 as (-> & _); auto).
  destruct (mem_exec_sim p m r e q M1) as [S1 _]. rewrite <- S1.
  destruct (B1 NE x X) as [H | [(H & _) | (H & _)]]; auto.
  - exfalso. apply (g2_dirt _ _ _ _ _ _ _ _ _ _ G) in H; [|pose proof (word_mul4 x); lia].
    destruct H as (A1 & v & A2 & EA & WV & _). apply (M v); auto. rewrite EA. apply in_or_app. left. apply in_or_app. right. left. auto.
  - exfalso. destruct H as [H _]. discriminate H.
Qed.
End B.

Section G.
Variable p : params.
Variable sz : nat -> N * N.
Variable n : nat.
Hypothesis W : wf_caches p sz n.
Notation pp := (sized p sz).
Variable s0 : nat -> st.
Variable m0 : mem.

Lemma far_inv : forall ts m rq rs, mmem p n m0 no_reqs no_resps ts m rq rs ->
  forall ts', clients p sz n s0 (ts ++ ts') ->
  (forall i, (i < n)%nat -> exists c0 af, clean_start (pp i) c0 /\ aruns (pp i) (mkA c0 None []) (proj i (ts ++ ts')) af) ->
  forall i, (i < n)%nat -> exists V a af Vs nd, aruns (pp i) a (proj i ts') af /\
    J3 (pp i) (far p) false true V a m (rq i) (rs i) (accepted (proj i ts)) (responses (proj i ts)) Vs nd.
Proof.
  intros ts m rq rs H. induction H as [|ts m rq rs j q l H IH L E | ts m rq rs t H IH D]; intros ts' C AS i I.
  - destruct (AS i I) as (c0 & af & CS & AR). exists m0, (mkA c0 None []), af, [], 0%nat. split; auto.
    apply (J3_start (pp i) (W i I)); auto.
  - destruct (IH ts' C AS i I) as (V & a & af & Vs & nd & AR & JJ). exists V, a, af, Vs, nd. split; auto. unfold setq.
    destruct (Nat.eqb_spec i j) as [->|NE].
    + rewrite E in JJ. apply (J3_exec (pp j) (W j I)); auto.
    + eapply J3_other; eauto. apply agr_false.
  - rewrite <- app_assoc in C, AS. cbn [app] in C, AS.
    destruct (IH (t :: ts') C AS i I) as (V & a & af & Vs & nd & AR & JJ).
    assert (C1 : clients p sz n s0 (ts ++ [t])).
    { apply (clients_app p sz n s0 _ ts'). rewrite <- app_assoc. auto. }
    cbn [proj map] in AR. rewrite (surjective_pairing (t i)) in AR. inversion AR as [|? ? ? a1 ? ? AC AR']; subst.
    destruct (J3_cycle (pp i) (W i I) (far p) _ _ _ _ _ _ _ _ _ _ _ _ _ _ JJ AC (D i I)) as (nd' & JN).
    { intros RE. destruct (clients_last p sz n s0 _ _ _ C1 I) as [_ CL]. destruct (CL RE) as [_ WF].
      split; [exact WF | exact (far_touch (pp i) (W i I) _ WF)]. }
    eexists. exists a1, af. eexists. exists nd'. split; auto.
    rewrite proj_app, accepted_app, responses_app. cbn [proj map]. rewrite acc1, resp1. exact JN.
Qed.
Lemma clients_na : forall ts m rq rs j q l x, mmem p n m0 no_reqs no_resps ts m rq rs -> clients p sz n s0 ts -> (j < n)%nat ->
  rq j = q :: l -> x < 2 ^ p_abw p -> unwritten p n ts (word_num x) -> is_amo (mq_type q) = false -> fst (mem_exec p m q) x = m x.
Proof.
  intros ts m rq rs j q l x H C J E X U NA.
  assert (CN : clients p sz n s0 (ts ++ [])) by (rewrite app_nil_r; auto).
  destruct (far_inv ts m rq rs H [] CN) with (i := j) as (V & a & af & Vs & nd & _ & JJ); auto.
  { rewrite app_nil_r. intros i I. apply (clients_ast p sz n W s0 m0 _ _ _ _ H C i I). }
  rewrite E in JJ. apply (J3_touch_na (pp j) (W j J) _ _ _ _ _ _ _ _ _ _ x JJ); auto. intros r R. apply (U j r J R).
Qed.
Lemma clients_echo : forall ts m rq rs i, mmem p n m0 no_reqs no_resps ts m rq rs -> clients p sz n s0 ts -> (i < n)%nat ->
  exists rest, map echo (accepted (proj i ts)) = map echo_y (responses (proj i ts)) ++ rest.
Proof.
  intros ts m rq rs i H C I. pose proof (multi_proto p sz n _ _ _ _ _ _ i C H I) as P.
  apply (proto_echo (pp i) (W i I)) in P. cbv zeta in P. destruct (C i I) as (_ & C2 & _). rewrite <- C2 in P. auto.
Qed.

Record lin (ts : list cyc) (m : mem) (rq : nat -> list mreq) (rs : nat -> list mresp) (L : list (nat * (creq * N))) : Prop := mkLin {
  li_req : forall i, (i < n)%nat -> prefix (map fst (by_cache i L)) (amos (proj i ts));
  li_msg : forall i, (i < n)%nat -> amo_msgs (memreqs (proj i ts)) = map (amo_want p) (map fst (by_cache i L)) ++ amo_msgs (rq i);
  li_ans : forall i, (i < n)%nat -> amo_answers (memresps (proj i ts)) ++ amo_answers (rs i) = map snd (by_cache i L);
  li_ids : Forall (fun x => (fst x < n)%nat) L;
  li_seq : forall a, a mod 4 = 0 -> a < 2 ^ p_abw p -> unwritten p n ts (word_num a) ->
    amo_seq (rd_bytes m0 a 4) (at_word a (map snd L)) (rd_bytes m a 4)
}.

Lemma lin_done : forall ts m rq rs L i, mmem p n m0 no_reqs no_resps ts m rq rs -> clients p sz n s0 ts -> lin ts m rq rs L ->
  (i < n)%nat -> prefix (amos_done (proj i ts)) (by_cache i L).
Proof.
  intros ts m rq rs L i H C LI I.
  destruct (clients_ast p sz n W s0 m0 _ _ _ _ H C i I) as (c & a & CS & AR).
  assert (CL : client_ok p (proj i ts)) by apply (C i I).
  destruct (KT_facts (pp i) _ _ (KT_run (pp i) (W i I) _ _ _ AR CL)) as [_ K2].
  destruct (clients_echo ts m rq rs i H C I) as (rest & EC).
  destruct (done_shape (accepted (proj i ts)) (responses (proj i ts))) as [D1 D2].
  { apply (f_equal (@length _)) in EC. rewrite app_length, !map_length in EC. lia. }
  { intros k r y N1 N2. assert (E : nth_error (map echo (accepted (proj i ts))) k = Some (echo r)) by (rewrite nth_error_map, N1; auto).
    rewrite EC, nth_error_app1, nth_error_map, N2 in E by (rewrite map_length; apply nth_error_Some; congruence).
    cbn in E. unfold echo_y, echo in E. inversion E. auto. }
  cbv zeta in D1, D2. fold (amos_done (proj i ts)) in D1, D2.
  assert (D3 : prefix (map snd (amos_done (proj i ts))) (map snd (by_cache i L))).
  { rewrite D2, <- (li_ans _ _ _ _ _ LI i I). apply prefix_app. auto. }
  apply prefix_pairs; auto. eapply prefix_two; [exact D1 | apply (li_req _ _ _ _ _ LI i I) |].
  apply prefix_len in D3. rewrite !map_length in *. auto.
Qed.

Definition cuts (ts : list cyc) (L : list (nat * (creq * N))) : Prop := forall ts1 ts2, ts = ts1 ++ ts2 ->
  exists L1 L2, L = L1 ++ L2 /\ forall i, (i < n)%nat ->
    prefix (amos_done (proj i ts1)) (by_cache i L1) /\ prefix (map fst (by_cache i L1)) (amos (proj i ts1)).

Lemma exec_amo : forall m q, is_amo (mq_type q) = true -> mem_exec p m q =
  (wr_bytes m (mq_addr q) 4 (amo_fun (mq_type q) (rd_bytes m (mq_addr q) 4) (slice (mq_data q) 0 32)),
   mkMResp (mq_type q) (mq_opq q) (mq_len q) (rd_bytes m (mq_addr q) 4)).
Proof.
  intros m q A. unfold mem_exec. destruct (N.eqb_spec (mq_type q) T_READ) as [E|_]; [rewrite E in A; discriminate|].
  destruct (N.eqb_spec (mq_type q) T_WRITE) as [E|_]; [rewrite E in A; discriminate|]. auto.
Qed.

Theorem lin_run : forall ts m rq rs, mmem p n m0 no_reqs no_resps ts m rq rs -> clients p sz n s0 ts ->
  exists L, lin ts m rq rs L /\ cuts ts L.
Proof.
  intros ts m rq rs H. induction H as [|ts m rq rs j q l H IH J E | ts m rq rs t H IH D]; intros C.
  - exists []. split.
    + constructor; auto.
      * intros i I. exists []. auto.
      * intros a _ _ _. reflexivity.
    + intros ts1 ts2 E. symmetry in E. apply app_eq_nil in E. destruct E; subst. exists [], []. split; auto. intros i I. split; exists []; auto.
  - destruct (IH C) as (L & LI & CU). clear IH.
    destruct (is_amo (mq_type q)) eqn:QA.
    + (* an AMO takes effect *)
      destruct (clients_ast p sz n W s0 m0 _ _ _ _ H C j J) as (c & a & CS & AR).
      assert (CL : client_ok p (proj j ts)) by apply (C j J).
      destruct (KT_facts (pp j) _ _ (KT_run (pp j) (W j J) _ _ _ AR CL)) as [[z K1] _].
      pose proof (li_msg _ _ _ _ _ LI j J) as MS. rewrite E in MS. rewrite MS in K1. clear MS.
      destruct (li_req _ _ _ _ _ LI j J) as [rest RQ].
      unfold amo_wants in K1. change (filter (fun r => is_amo (cq_type r)) (accepted (proj j ts))) with (amos (proj j ts)) in K1.
      rewrite RQ, map_app, <- app_assoc in K1. apply app_inv_head in K1.
      unfold amo_msgs at 1 in K1. cbn [filter] in K1. rewrite QA in K1. cbn [map app] in K1.
      destruct rest as [|r rest]; [discriminate|]. cbn [map] in K1. inversion K1 as [[W1 W2 W3 W4]]. clear K1.
      assert (RIN : In r (accepted (proj j ts)) /\ is_amo (cq_type r) = true).
      { assert (IN : In r (amos (proj j ts))) by (rewrite RQ; apply in_or_app; right; left; auto).
        apply filter_In in IN. auto. }
      destruct RIN as [RIN RA].
      assert (WR : wf_req p r). { apply accepted_wf in CL. rewrite Forall_forall in CL. auto. }
      pose proof (is_amo_wf p r WR RA) as (_ & RAL & _).
      set (d := rd_bytes m (cq_addr r) 4).
      assert (DL : d < 2 ^ 32) by apply (rd_lt 4).
      assert (EX := exec_amo m q QA). rewrite <- W1, <- W3, <- W4 in EX. fold d in EX.
      assert (SD : slice (trunc (p_dbw p) (cq_data r)) 0 32 = trunc 32 (cq_data r)).
      { apply N.bits_inj; intro k. rewrite testbit_slice, !testbit_trunc, N.sub_0_r, N.add_0_r. pose proof (wf_dbw (pp j) (W j J)).
        destruct (N.ltb_spec k 32); auto. destruct (N.ltb_spec k (p_dbw p)); auto. cbn [p_dbw sized] in *. lia. }
      rewrite SD in EX.
      exists (L ++ [(j, (r, d))]). rewrite EX. cbn [fst snd].
      set (m' := wr_bytes m (cq_addr r) 4 (amo_fun (cq_type r) d (trunc 32 (cq_data r)))).
      assert (LI' : lin ts m' (setq rq j l) (setq rs j (rs j ++ [mkMResp (cq_type r) (mq_opq q) (mq_len q) d])) (L ++ [(j, (r, d))])).
      { constructor.
        - intros i I. rewrite by_cache_app, by_cache_one. destruct (Nat.eqb_spec j i) as [<-|NE].
          + rewrite map_app. cbn [map fst]. exists rest. rewrite RQ, <- app_assoc. auto.
          + rewrite app_nil_r. apply (li_req _ _ _ _ _ LI); auto.
        - intros i I. rewrite (li_msg _ _ _ _ _ LI i I), by_cache_app, by_cache_one. unfold setq. rewrite (Nat.eqb_sym j i).
          destruct (Nat.eqb_spec i j) as [->|NE].
          + rewrite E, !map_app, <- app_assoc. cbn [map fst app]. f_equal. unfold amo_msgs at 1. cbn [filter]. rewrite QA. cbn [map].
            f_equal. unfold amo_msg, amo_want. rewrite <- W1, <- W2, <- W3, <- W4. auto.
          + rewrite app_nil_r. auto.
        - intros i I. rewrite by_cache_app, by_cache_one, map_app, <- (li_ans _ _ _ _ _ LI i I), <- app_assoc. f_equal. unfold setq.
          rewrite (Nat.eqb_sym j i). destruct (Nat.eqb_spec i j) as [->|NE].
          + rewrite amo_answers_app. f_equal. unfold amo_answers. cbn [filter mr_type mr_data]. rewrite RA. cbn [map mr_data snd].
            f_equal. unfold slice. rewrite N.shiftr_0_r, N.sub_0_r, trunc_small; auto.
          + cbn [map]. rewrite app_nil_r. auto.
        - apply Forall_app. split; [apply (li_ids _ _ _ _ _ LI) | constructor; auto].
        - intros a0 A1 A2 A3. rewrite map_app, at_word_app. cbn [map snd]. unfold at_word at 2. cbn [filter fst].
          eapply amo_seq_app; [apply (li_seq _ _ _ _ _ LI a0 A1 A2 A3)|].
          destruct (N.eqb_spec (cq_addr r) a0) as [EA|NA]; cbn [amo_seq].
          + subst a0. split; auto. unfold m'. rewrite rd_wr_same. change (8 * N.of_nat 4) with 32. apply trunc_small.
            apply amo_fun_lt; auto. apply trunc_lt.
          + unfold m'. apply rd_wr_other; auto. }
      split; auto. intros ts1 ts2 ET. destruct (CU ts1 ts2 ET) as (L1 & L2 & EL & CC).
      exists L1, (L2 ++ [(j, (r, d))]). rewrite EL, <- app_assoc. auto.
    + (* anything else *)
      exists L. split; auto.
      assert (NM : amo_msgs (q :: l) = amo_msgs l) by (unfold amo_msgs; cbn [filter]; rewrite QA; auto).
      constructor.
      * apply (li_req _ _ _ _ _ LI).
      * intros i I. rewrite (li_msg _ _ _ _ _ LI i I). unfold setq. destruct (Nat.eqb_spec i j) as [->|NE]; auto. rewrite E, NM. auto.
      * intros i I. rewrite <- (li_ans _ _ _ _ _ LI i I). unfold setq. destruct (Nat.eqb_spec i j) as [->|NE]; auto.
        rewrite amo_answers_app. unfold amo_answers at 3. cbn [filter]. rewrite (mem_exec_type p m q), QA. cbn [map]. rewrite app_nil_r. auto.
      * apply (li_ids _ _ _ _ _ LI).
      * intros a0 A1 A2 A3. replace (rd_bytes (fst (mem_exec p m q)) a0 4) with (rd_bytes m a0 4); [apply (li_seq _ _ _ _ _ LI); auto|].
        symmetry. apply rd_ext. intros k K. change (N.of_nat 4) with 4 in K. f_equal.
        assert (WN : word_num (a0 + k) = word_num a0).
        { unfold word_num. pose proof (N.div_mod' a0 4) as DM. rewrite A1 in DM. set (z := a0 / 4) in *. clearbody z.
          symmetry. apply N.div_unique with k; lia. }
        apply (clients_na ts m rq rs j q l (a0 + k)); auto.
        -- destruct (off_aligned (pp j) a0 2) as [_ OF]; [pose proof (offw_ge3 (pp j) (W j J)); lia | auto |].
           apply (addr_add (pp j) (W j J)); auto. change (2 ^ 2) with 4 in OF. lia.
        -- rewrite WN. auto.
  - destruct (IH (clients_app p sz n s0 _ _ C)) as (L & LI & CU). clear IH.
    assert (LI' : lin (ts ++ [t]) m (fun i => rq i ++ opt_list (o_mreq (snd (t i))))
      (fun i => if i_mresp_en (fst (t i)) then List.tl (rs i) else rs i) L).
    { constructor.
      - intros i I. rewrite proj_app. unfold amos. rewrite accepted_app, filter_app. apply prefix_app. apply (li_req _ _ _ _ _ LI i I).
      - intros i I. rewrite proj_app. unfold memreqs. rewrite flat_map_app. fold (memreqs (proj i ts)).
        rewrite amo_msgs_app, (li_msg _ _ _ _ _ LI i I), <- app_assoc, amo_msgs_app. cbn [proj map flat_map]. rewrite app_nil_r. auto.
      - intros i I. rewrite proj_app. unfold memresps. rewrite flat_map_app. fold (memresps (proj i ts)). cbn [proj map flat_map].
        rewrite app_nil_r, amo_answers_app, <- app_assoc, <- (li_ans _ _ _ _ _ LI i I). f_equal.
        specialize (D i I). destruct (i_mresp_en (fst (t i))); auto. destruct (D eq_refl) as (l & RS). rewrite RS. cbn [List.tl].
        rewrite <- amo_answers_app. auto.
      - apply (li_ids _ _ _ _ _ LI).
      - intros a A1 A2 A3. apply (li_seq _ _ _ _ _ LI); auto. intros i r I IN. apply (A3 i r I).
        rewrite proj_app, accepted_app. apply in_or_app. auto. }
    exists L. split; auto. intros ts1 ts2 ET. destruct ts2 as [|u ts2] using rev_ind.
    + rewrite app_nil_r in ET. subst ts1. exists L, []. rewrite app_nil_r. split; auto. intros i I. split; [|apply (li_req _ _ _ _ _ LI' i I)].
      eapply lin_done; eauto. apply mm_cycle; auto.
    + clear IHts2. rewrite app_assoc in ET. apply app_inj_tail in ET. destruct ET as [ET _]. apply (CU ts1 ts2 ET).
Qed.
End G.

Section Use.
Variable p : params.
Variable sz : nat -> N * N.
Variable n : nat.
Hypothesis W : wf_caches p sz n.

Theorem multi_amo : forall s0 ts m0 m rq rs, clients p sz n s0 ts -> mmem p n m0 no_reqs no_resps ts m rq rs ->
  exists L : list (nat * (creq * N)),
    Forall (fun x => (fst x < n)%nat) L /\
    (forall a, a mod 4 = 0 -> a < 2 ^ p_abw p -> unwritten p n ts (word_num a) ->
       amo_seq (rd_bytes m0 a 4) (at_word a (map snd L)) (rd_bytes m a 4)) /\
    (forall ts1 ts2, ts = ts1 ++ ts2 -> exists L1 L2, L = L1 ++ L2 /\ forall i, (i < n)%nat ->
       prefix (amos_done (proj i ts1)) (by_cache i L1) /\ prefix (map fst (by_cache i L1)) (amos (proj i ts1))) /\
    (forall i, (i < n)%nat -> prefix (amos_done (proj i ts)) (by_cache i L) /\ prefix (map fst (by_cache i L)) (amos (proj i ts))).
Proof.
  intros s0 ts m0 m rq rs C H.
  destruct (lin_run p sz n W s0 m0 ts m rq rs H C) as (L & LI & CU). exists L.
  split; [apply (li_ids _ _ _ _ _ _ _ _ LI)|]. split; [apply (li_seq _ _ _ _ _ _ _ _ LI)|]. split; auto.
  intros i I. split; [eapply lin_done; eauto | apply (li_req _ _ _ _ _ _ _ _ LI i I)].
Qed.

(** Global positions *)
Lemma nth_filter : forall A (f : A -> bool) l k x, nth_error (filter f l) k = Some x ->
  exists l1 l2, l = l1 ++ x :: l2 /\ f x = true /\ length (filter f l1) = k.
Proof.
  induction l as [|y l IH]; intros k x H; cbn [filter] in H; [destruct k; discriminate|].
  destruct (f y) eqn:F.
  - destruct k as [|k]; cbn in H.
    + inversion H; subst. exists [], l. auto.
    + destruct (IH k x H) as (l1 & l2 & -> & F1 & F2). exists (y :: l1), l2. cbn [filter app]. rewrite F. cbn. auto.
  - destruct (IH k x H) as (l1 & l2 & -> & F1 & F2). exists (y :: l1), l2. cbn [filter app]. rewrite F. auto.
Qed.
Lemma prefix_filter : forall A (f : A -> bool) l l', prefix l l' -> prefix (filter f l) (filter f l').
Proof. intros A f l l' [r ->]. rewrite filter_app. exists (filter f r). auto. Qed.
Lemma prefix_nth : forall A (l l' : list A) k x, prefix l l' -> nth_error l k = Some x -> nth_error l' k = Some x.
Proof. intros A l l' k x [r ->] N. rewrite nth_error_app1; auto. apply nth_error_Some. congruence. Qed.
Lemma at_by : forall a i (L : list (nat * (creq * N))), at_word a (by_cache i L) = by_cache i (filter (fun x => cq_addr (fst (snd x)) =? a) L).
Proof.
  induction L as [|[j [r d]] L IH]; auto. unfold by_cache in *. cbn [filter fst snd].
  destruct (Nat.eqb j i) eqn:E.
  - cbn [map snd]. unfold at_word at 1. cbn [filter fst]. destruct (cq_addr r =? a); cbn [filter fst]; [rewrite E; cbn [map snd]; f_equal|]; auto.
  - destruct (cq_addr r =? a); cbn [filter fst]; [rewrite E|]; auto.
Qed.
Lemma at_map : forall a (L : list (nat * (creq * N))), at_word a (map snd L) = map snd (filter (fun x => cq_addr (fst (snd x)) =? a) L).
Proof. induction L as [|[j [r d]] L IH]; auto. cbn [map filter fst snd]. unfold at_word in *. cbn [filter fst]. destruct (cq_addr r =? a); cbn [map snd]; congruence. Qed.
(** an entry of cache [i]'s part of a list: where it is globally *)
Lemma by_cache_pos : forall A i (L : list (nat * A)) k x, nth_error (by_cache i L) k = Some x ->
  exists L1 L2, L = L1 ++ (i, x) :: L2 /\ length (by_cache i L1) = k.
Proof.
  intros A i L k x H. unfold by_cache in H. rewrite nth_error_map in H.
  destruct (nth_error (filter (fun x0 => Nat.eqb (fst x0) i) L) k) as [[j y]|] eqn:E; [|discriminate].
  cbn in H. inversion H; subst. apply nth_filter in E. destruct E as (L1 & L2 & -> & F & LN). cbn in F. apply Nat.eqb_eq in F. subst j.
  exists L1, L2. split; auto. unfold by_cache. rewrite map_length. auto.
Qed.

(** *** Test-and-set *)
Lemma seq_app_inv : forall L v L' v'', amo_seq v (L ++ L') v'' -> exists v', amo_seq v L v' /\ amo_seq v' L' v''.
Proof.
  induction L as [|[r d] L IH]; intros v L' v'' H; cbn [amo_seq app] in *; [eauto|].
  destruct H as [H1 H2]. destruct (IH _ _ _ H2) as (v' & A & B). exists v'. auto.
Qed.
Lemma swap_ones : forall L v v', Forall (fun x : creq * N => cq_type (fst x) = T_AMO_SWAP /\ trunc 32 (cq_data (fst x)) = 1) L ->
  v = 1 -> amo_seq v L v' -> Forall (fun x => snd x = 1) L.
Proof.
  induction L as [|[r d] L IH]; intros v v' F E H; [constructor|]. inversion F as [|? ? [F1 F2] F3]; subst. cbn [fst amo_seq] in *.
  destruct H as [H1 H2]. constructor; auto. rewrite F1, F2 in H2. eapply IH; [exact F3 | | exact H2]. reflexivity.
Qed.
Lemma one_winner : forall L1 L2 v v' r r', Forall (fun x : creq * N => cq_type (fst x) = T_AMO_SWAP /\ trunc 32 (cq_data (fst x)) = 1) (L1 ++ (r, 0) :: L2) ->
  amo_seq v (L1 ++ (r, 0) :: L2) v' -> ~ In (r', 0) L1 /\ ~ In (r', 0) L2.
Proof.
  assert (A : forall L1 L2 v v' r r', Forall (fun x : creq * N => cq_type (fst x) = T_AMO_SWAP /\ trunc 32 (cq_data (fst x)) = 1) (L1 ++ (r, 0) :: L2) ->
    amo_seq v (L1 ++ (r, 0) :: L2) v' -> ~ In (r', 0) L2).
  { intros L1 L2 v v' r r' F H IN. apply seq_app_inv in H. destruct H as (v1 & _ & H). cbn [amo_seq] in H. destruct H as [_ H].
    apply Forall_app in F. destruct F as [_ F]. inversion F as [|? ? [F1 F2] F3]; subst. cbn [fst] in *. rewrite F1, F2 in H.
    apply swap_ones in H; auto. rewrite Forall_forall in H. apply H in IN. discriminate. }
  intros L1 L2 v v' r r' F H. split; [|eapply A; eauto]. intros IN. apply in_split in IN. destruct IN as (l1 & l2 & ->).
  rewrite <- app_assoc in F, H. cbn [app] in F, H. eapply A; [exact F | exact H |]. apply in_or_app. right. left. auto.
Qed.

Theorem multi_lock : forall s0 ts m0 m rq rs a, clients p sz n s0 ts -> mmem p n m0 no_reqs no_resps ts m rq rs ->
  a mod 4 = 0 -> a < 2 ^ p_abw p -> unwritten p n ts (word_num a) ->
  (forall i r, (i < n)%nat -> In r (amos (proj i ts)) -> cq_addr r = a -> cq_type r = T_AMO_SWAP /\ trunc 32 (cq_data r) = 1) ->
  forall i j k l r r', (i < n)%nat -> (j < n)%nat ->
  nth_error (at_word a (amos_done (proj i ts))) k = Some (r, 0) -> nth_error (at_word a (amos_done (proj j ts))) l = Some (r', 0) ->
  i = j /\ k = l.
Proof.
  intros s0 ts m0 m rq rs a C H A1 A2 A3 SW i j k l r r' I J N1 N2.
  destruct (multi_amo _ _ _ _ _ _ C H) as (L & IDS & SEQ & _ & PX). specialize (SEQ a A1 A2 A3).
  assert (Q : forall i k r, (i < n)%nat -> nth_error (at_word a (amos_done (proj i ts))) k = Some (r, 0) ->
     nth_error (by_cache i (filter (fun x => cq_addr (fst (snd x)) =? a) L)) k = Some (r, 0)).
  { clear - PX. intros i k r I N. destruct (PX i I) as [P1 _]. rewrite <- at_by. eapply prefix_nth; [|exact N]. apply prefix_filter. auto. }
  apply Q in N1; auto. apply Q in N2; auto. clear Q. rewrite at_map in SEQ.
  assert (FS : Forall (fun x : creq * N => cq_type (fst x) = T_AMO_SWAP /\ trunc 32 (cq_data (fst x)) = 1)
    (map snd (filter (fun x => cq_addr (fst (snd x)) =? a) L))).
  { apply Forall_forall. intros [u d] IN. apply in_map_iff in IN. destruct IN as ([o x] & E & IN). cbn in E. subst x.
    apply filter_In in IN. destruct IN as [IN EA]. cbn in EA. apply N.eqb_eq in EA. cbn [fst].
    rewrite Forall_forall in IDS. pose proof (IDS _ IN) as O. cbn in O. apply (SW o u O); auto.
    destruct (PX o O) as [_ [z P2]]. rewrite P2. apply in_or_app. left. apply in_map_iff. exists (u, d). split; auto.
    unfold by_cache. apply in_map_iff. exists (o, (u, d)). split; auto. apply filter_In. split; auto. cbn. apply Nat.eqb_refl. }
  set (F := filter (fun x => cq_addr (fst (snd x)) =? a) L) in *. clearbody F.
  apply by_cache_pos in N1. destruct N1 as (L1 & L2 & -> & <-). apply by_cache_pos in N2. destruct N2 as (L1' & L2' & E & <-).
  rewrite map_app in SEQ, FS. cbn [map snd] in SEQ, FS. destruct (one_winner _ _ _ _ r r' FS SEQ) as [O1 O2].
  assert (EQ : L1 = L1' /\ (i, (r, 0)) = (j, (r', 0))).
  { clear - E O1 O2. revert L1' E O1. induction L1 as [|x L1 IH]; intros [|x' L1'] E O1; cbn [app] in E; inversion E; subst.
    - auto.
    - exfalso. apply O2. apply in_map_iff. exists (j, (r', 0)). split; auto. apply in_or_app. right. left. auto.
    - exfalso. apply O1. left. auto.
    - destruct (IH L1') as [-> X]; auto. intros IN. apply O1. right. auto. }
  destruct EQ as [-> EQ]. inversion EQ; auto.
Qed.

(** *** Fetch-and-add *)
Lemma add_seq : forall L v v', Forall (fun x : creq * N => cq_type (fst x) = T_AMO_ADD) L -> v < 2 ^ 32 -> amo_seq v L v' ->
  v' = trunc 32 (v + fold_right N.add 0 (map (fun x => trunc 32 (cq_data (fst x))) L)).
Proof.
  induction L as [|[r d] L IH]; intros v v' F V H; cbn [amo_seq] in *.
  - subst. cbn [map fold_right]. rewrite N.add_0_r, trunc_small; auto.
  - destruct H as [_ H]. inversion F as [|? ? F1 F2]; subst. cbn [fst] in F1. rewrite F1 in H. unfold amo_fun in H. rewrite N.eqb_refl in H.
    apply IH in H; auto; [|apply trunc_lt]. rewrite H. cbn [map fold_right fst]. rewrite !trunc_mod.
    rewrite N.add_mod_idemp_l by discriminate. f_equal. lia.
Qed.
Lemma sum_app : forall l l', fold_right N.add 0 (l ++ l') = fold_right N.add 0 l + fold_right N.add 0 l'.
Proof. induction l as [|x l IH]; intros; cbn [fold_right app]; [lia|]. rewrite IH. lia. Qed.
(** summing over all caches is summing over the whole list *)
Lemma sum_by : forall (f : creq * N -> N) n' L, Forall (fun x : nat * (creq * N) => (fst x < n')%nat) L ->
  fold_right N.add 0 (map f (map snd L)) = fold_right N.add 0 (map (fun i => fold_right N.add 0 (map f (by_cache i L))) (seq 0 n')).
Proof.
  intros f n'. induction L as [|[j x] L IH]; intros F.
  - cbn [map fold_right]. clear F. induction (seq 0 n') as [|i l IH]; auto.
  - inversion F as [|? ? F1 F2]; subst. cbn [fst] in F1. cbn [map snd fold_right]. rewrite IH by auto. clear IH F F2.
    assert (IN : In j (seq 0 n')) by (apply in_seq; lia). assert (ND := seq_NoDup n' 0). clear F1.
    assert (E : forall i, fold_right N.add 0 (map f (by_cache i ((j, x) :: L))) =
       (if Nat.eqb j i then f x else 0) + fold_right N.add 0 (map f (by_cache i L))).
    { intros i. unfold by_cache. cbn [filter fst]. destruct (Nat.eqb j i); cbn [map snd fold_right]; auto. }
    assert (NI : forall l, ~ In j l -> map (fun i => fold_right N.add 0 (map f (by_cache i ((j, x) :: L)))) l =
        map (fun i => fold_right N.add 0 (map f (by_cache i L))) l).
    { intros l NJ. apply map_ext_in. intros i I. rewrite E. destruct (Nat.eqb_spec j i); [subst; contradiction | auto]. }
    induction (seq 0 n') as [|i l IH]; [destruct IN|]. inversion ND; subst. cbn [map fold_right]. rewrite (E i).
    destruct IN as [->|IN].
    + rewrite Nat.eqb_refl, NI by auto. lia.
    + destruct (Nat.eqb_spec j i) as [->|NE]; [contradiction|]. rewrite <- IH; auto. lia.
Qed.

Theorem multi_counter : forall s0 ts m0 m rq rs a, clients p sz n s0 ts -> mmem p n m0 no_reqs no_resps ts m rq rs ->
  a mod 4 = 0 -> a < 2 ^ p_abw p -> unwritten p n ts (word_num a) ->
  (forall i r, (i < n)%nat -> In r (amos (proj i ts)) -> cq_addr r = a -> cq_type r = T_AMO_ADD) ->
  (forall i, (i < n)%nat -> length (responses (proj i ts)) = length (accepted (proj i ts))) ->
  rd_bytes m a 4 = trunc 32 (rd_bytes m0 a 4 + all_operands n a ts).
Proof.
  intros s0 ts m0 m rq rs a C H A1 A2 A3 AD ALL.
  destruct (multi_amo _ _ _ _ _ _ C H) as (L & IDS & SEQ & _ & PX). specialize (SEQ a A1 A2 A3). rewrite at_map in SEQ.
  assert (BY : forall i, (i < n)%nat -> map fst (by_cache i L) = amos (proj i ts)).
  { intros i I. destruct (PX i I) as [P1 P2]. destruct P2 as [z P2]. destruct z as [|z0 z]; [rewrite app_nil_r in P2; auto|]. exfalso.
    apply prefix_len in P1. apply (f_equal (@length _)) in P2. rewrite app_length, map_length in P2. cbn [length] in P2.
    assert (LD : length (amos_done (proj i ts)) = length (amos (proj i ts))).
    { unfold amos_done, amos. rewrite map_length. specialize (ALL i I). revert ALL. generalize (responses (proj i ts)).
      induction (accepted (proj i ts)) as [|r A IH]; intros [|y Y] LL; cbn in *; try discriminate; auto.
      destruct (is_amor r); cbn; rewrite IH; auto. }
    lia. }
  apply add_seq in SEQ.
  - rewrite SEQ. f_equal. f_equal.
    rewrite (sum_by (fun x => trunc 32 (cq_data (fst x))) n).
    + unfold all_operands. f_equal. apply map_ext_in. intros i I. apply in_seq in I. unfold operands. rewrite <- BY by lia. rewrite <- at_by.
      f_equal. unfold at_word. induction (by_cache i L) as [|[r d] l IH]; auto. cbn [filter map fst]. destruct (cq_addr r =? a); cbn [map fst]; rewrite IH; auto.
    + apply Forall_forall. intros x IN. apply filter_In in IN. rewrite Forall_forall in IDS. apply IDS. apply IN.
  - apply Forall_forall. intros [u d] IN. apply in_map_iff in IN. destruct IN as ([o x] & E & IN). cbn in E. subst x.
    apply filter_In in IN. destruct IN as [IN EA]. cbn in EA. apply N.eqb_eq in EA. cbn [fst].
    rewrite Forall_forall in IDS. pose proof (IDS _ IN) as O. cbn in O. apply (AD o u O); auto.
    rewrite <- BY by auto. apply in_map_iff. exists (u, d). split; auto.
    unfold by_cache. apply in_map_iff. exists (o, (u, d)). split; auto. apply filter_In. split; auto. cbn. apply Nat.eqb_refl.
  - apply (rd_lt 4).
Qed.
End Use.

(** Executable check. *)
Definition unwrittenb (p : params) (n : nat) (ts : list cyc) (k : N) : bool :=
  forallb (fun i => forallb (fun r => negb ((cq_type r =? T_WRITE) &&
    ((word_num (cq_addr r) <=? k) && (k <=? word_num (cq_addr r + req_bytes p r - 1))))) (accepted (proj i ts))) (seq 0 n).
Lemma unwrittenb_ok : forall p n ts k, unwrittenb p n ts k = true -> unwritten p n ts k.
Proof.
  intros p n ts k H i r I IN (T & L1 & L2). unfold unwrittenb in H. rewrite forallb_forall in H. specialize (H i ltac:(apply in_seq; lia)).
  rewrite forallb_forall in H. specialize (H r IN). apply N.eqb_eq in T. apply N.leb_le in L1, L2. rewrite T, L1, L2 in H. discriminate H.
Qed.
