(** System-level facts about AMOs. *)
From Coq Require Import Arith NArith List Bool Lia.
From Verif Require Import Bits Params Msg Units Rtl Mem Spec System Tl ParamsProofs RtlLemmas RefineInv RefineStall RefineProofs
  ViewDefs ViewProofs SysProofs SysFacts Facts1 Facts2 Traffic MetaProofs PendProofs TrafProofs Facts3.
Import ListNotations.
Open Scope N_scope.

Section F.
Variable p : params.
Hypothesis W : wf_params p.

(** What memory is asked to do for an AMO. *)
Definition amo_msg (q : mreq) : N * N * N * N := (mq_type q, mq_opq q, mq_addr q, mq_data q).
Definition amo_want (r : creq) : N * N * N * N := (cq_type r, cq_opq r, cq_addr r, trunc (p_dbw p) (cq_data r)).
Definition amo_msgs (l : list mreq) : list (N * N * N * N) := map amo_msg (filter (fun q => is_amo (mq_type q)) l).
Definition amo_wants (l : list creq) : list (N * N * N * N) := map amo_want (filter (fun r => is_amo (cq_type r)) l).

Lemma amo_msgs_app : forall l l', amo_msgs (l ++ l') = amo_msgs l ++ amo_msgs l'.
Proof. intros. unfold amo_msgs. rewrite filter_app, map_app. auto. Qed.
Lemma amo_wants_app : forall l l', amo_wants (l ++ l') = amo_wants l ++ amo_wants l'.
Proof. intros. unfold amo_wants. rewrite filter_app, map_app. auto. Qed.

Lemma wbs_noamo : forall g P m, wbs_ok p P m g -> amo_msgs g = [].
Proof.
  induction g as [|q g IH]; intros P m H; auto. destruct H as [[h1 _ _ _ _ _] H]. unfold amo_msgs. cbn [filter]. rewrite h1.
  change (is_amo T_WRITE) with false. cbn iota. eapply IH; eauto.
Qed.
Lemma req_amo : forall P L m r g, req_traffic p P L m r g -> amo_msgs g = amo_wants [r].
Proof.
  intros P L m r g H. unfold req_traffic in H. unfold amo_wants. cbn [filter]. destruct (rw_req r) eqn:T.
  - destruct (rw_type r T) as (NA & _). rewrite NA. cbn [map].
    match type of H with (if ?d then _ else _) => destruct d end; [subst; auto|].
    destruct H as (wb & q & -> & WB & _ & _ & TQ & _). rewrite amo_msgs_app, (wbs_noamo _ _ _ WB). unfold amo_msgs. cbn [filter].
    rewrite TQ. auto.
  - destruct (is_amo (cq_type r)) eqn:IA.
    + destruct H as (wb & q & -> & WB & _ & _ & _ & Q1 & Q2 & Q3 & _ & Q5). rewrite amo_msgs_app, (wbs_noamo _ _ _ WB).
      unfold amo_msgs. cbn [filter]. rewrite Q1, IA. cbn [map app]. unfold amo_msg, amo_want. rewrite Q1, Q2, Q3, Q5. auto.
    + cbn [map]. destruct (cq_type r =? T_FLUSH); [destruct H as [WB _]; eapply wbs_noamo; eauto | subst; auto].
Qed.
Lemma traf_amo_msgs : forall A G P L m, traffic p P L m A G -> amo_msgs (concat G) = amo_wants A.
Proof.
  induction A as [|r A IH]; intros [|g G] P L m T; cbn [traffic] in T; auto; try contradiction. destruct T as [T1 T2].
  cbn [concat]. rewrite amo_msgs_app, (req_amo _ _ _ _ _ T1), (IH _ _ _ _ T2). rewrite <- amo_wants_app. auto.
Qed.
Lemma traf_firstn : forall n A G P L m, traffic p P L m A G -> traffic p P L m (firstn n A) (firstn n G).
Proof.
  induction n; intros [|r A] [|g G] P L m T; cbn [firstn traffic] in *; auto. destruct T. auto.
Qed.

Theorem sys_amo_once : forall s0 is m0 m rq rs, sys_run p s0 is m0 m rq rs ->
  let tr := trace_of p s0 is in
  (exists rest, amo_wants (accepted tr) = amo_msgs (memreqs tr) ++ rest) /\
  (exists mid, amo_msgs (memreqs tr) = amo_wants (firstn (length (responses tr)) (accepted tr)) ++ mid).
Proof.
  intros s0 is m0 m rq rs R tr. destruct (sys_traffic p W _ _ _ _ _ _ R) as (G & T & (rest & E1) & (mid & E2)). fold tr in T, E1, E2.
  split.
  - exists (amo_msgs rest). rewrite <- amo_msgs_app, <- E1. symmetry. eapply traf_amo_msgs; eauto.
  - exists (amo_msgs mid). rewrite E2, amo_msgs_app. f_equal. eapply traf_amo_msgs. apply traf_firstn. eauto.
Qed.

(** *** The answer of memory is the answer of the cache *)
Definition amo_answers (l : list mresp) : list N := map (fun x => slice (mr_data x) 0 32) (filter (fun x => is_amo (mr_type x)) l).
Definition amo_results (l : list cresp) : list N := map cr_data (filter (fun y => is_amo (cr_type y)) l).
Lemma amo_answers_app : forall l l', amo_answers (l ++ l') = amo_answers l ++ amo_answers l'.
Proof. intros. unfold amo_answers. rewrite filter_app, map_app. auto. Qed.
Lemma amo_results_app : forall l l', amo_results (l ++ l') = amo_results l ++ amo_results l'.
Proof. intros. unfold amo_results. rewrite filter_app, map_app. auto. Qed.

Lemma run_noamo : forall l m, Forall (fun q => is_amo (mq_type q) = false) l -> amo_answers (snd (mem_run p m l)) = [].
Proof.
  induction l as [|q l IH]; intros m F; auto. inversion F; subst. cbn [mem_run].
  pose proof (mem_exec_type p m q) as T. destruct (mem_exec p m q) as [m1 x]. cbn [snd] in T. specialize (IH m1 H2).
  destruct (mem_run p m1 l) as [m2 xs]. cbn [snd] in *. unfold amo_answers. cbn [filter]. rewrite T, H1. exact IH.
Qed.

Lemma tl_amo_answers : forall c m r, wf_req p r ->
  amo_answers (snd (mem_run p m (tl_reqs p c r))) =
  amo_results [snd (tl_fin p c r (last_data (snd (mem_run p m (tl_reqs p c r)))))].
Proof.
  intros c m r WF.
  assert (RT : forall d, amo_results [snd (tl_fin p c r d)] = if is_amo (cq_type r) then [cr_data (snd (tl_fin p c r d))] else []).
  { intros d. unfold amo_results. cbn [filter]. destruct (tl_fin_echo p c r d) as (-> & _). destruct (is_amo (cq_type r)); auto. }
  rewrite RT. clear RT.
  assert (EV : Forall (fun q => is_amo (mq_type q) = false) (wbs p c r)).
  { unfold wbs. destruct (tl_evict p c r); repeat constructor. }
  destruct (is_amo (cq_type r)) eqn:IA.
  - pose proof (is_amo_wf p r WF IA) as WA. destruct (amo_type p r WA) as (NR & _ & NI & NF & _).
    assert (RQ : tl_reqs p c r = wbs p c r ++ [amo_req p c r]) by (unfold tl_reqs, tl_isamo; rewrite NI, NF, IA; auto).
    rewrite RQ, mem_run_app. cbn [snd]. rewrite amo_answers_app, run_noamo by auto. cbn [app mem_run].
    set (m1 := fst (mem_run p m (wbs p c r))). pose proof (mem_exec_type p m1 (amo_req p c r)) as T.
    destruct (mem_exec p m1 (amo_req p c r)) as [m2 x]. cbn [snd] in *.
    unfold last_data. rewrite fold_left_app. cbn [fold_left]. unfold amo_answers. cbn [filter]. rewrite T.
    change (mq_type (amo_req p c r)) with (cq_type r). rewrite IA. cbn [map].
    unfold tl_fin. unfold tl_isamo. rewrite NI, NF, IA. auto.
  - apply run_noamo. unfold tl_reqs. destruct (cq_type r =? T_INV); auto. destruct (cq_type r =? T_FLUSH).
    { apply Forall_forall. intros q IN. destruct (flush_shape p _ _ _ _ IN) as (j & _ & -> & _). auto. }
    unfold tl_isamo. rewrite IA. destruct (tl_hit p c r); auto. apply Forall_app. split; auto.
Qed.

Theorem hist_amo : forall m0 A c m Y Q, hist p m0 A c m Y Q ->
  m = fst (mem_run p m0 (map snd Q)) /\ amo_answers (snd (mem_run p m0 (map snd Q))) = amo_results Y.
Proof.
  intros m0 A c m Y Q H. induction H as [c CS | A c m Y Q r H (IH1 & IH2) WF]; [auto|].
  assert (X : map snd (map (pair r) (tl_reqs p c r)) = tl_reqs p c r).
  { rewrite map_map. apply map_id. }
  rewrite map_app, X, mem_run_app, <- IH1. cbn [fst snd]. split; auto.
  rewrite amo_answers_app, IH2, amo_results_app. f_equal. apply tl_amo_answers; auto.
Qed.

Lemma run_sim2 : forall Q S m, Forall2 qmatch Q S ->
  fst (mem_run p m (map snd Q)) = fst (mem_run p m S) /\ Forall2 rsim (snd (mem_run p m (map snd Q))) (snd (mem_run p m S)).
Proof.
  intros Q S m F. revert m. induction F as [|[r e] q Q S M F IH]; intros m; [cbn; auto|]. cbn [map snd mem_run].
  destruct (mem_exec_sim p m r e q M) as [E1 E2].
  destruct (mem_exec p m e) as [m1 x1], (mem_exec p m q) as [m2 x2]. cbn [fst snd] in *. subst m2.
  destruct (IH m1) as [I1 I2]. destruct (mem_run p m1 (map snd Q)), (mem_run p m1 S). cbn [fst snd] in *. auto.
Qed.
Lemma rsim_answers : forall l l', Forall2 rsim l l' -> amo_answers l = amo_answers l'.
Proof.
  induction 1 as [|x y l l' (E1 & E2) F IH]; auto. unfold amo_answers in *. cbn [filter]. rewrite E1. destruct (is_amo (mr_type y)); auto.
  cbn [map]. rewrite E2, IH. auto.
Qed.
Lemma run_len : forall l m, length (snd (mem_run p m l)) = length l.
Proof.
  induction l as [|q l IH]; intros mm; auto. cbn [mem_run]. destruct (mem_exec p mm q) as [m1 x].
  specialize (IH m1). destruct (mem_run p m1 l). cbn in *. lia.
Qed.

Theorem sys_amo_data : forall s0 is m0 m rq rs, sys_run p s0 is m0 m rq rs ->
  let tr := trace_of p s0 is in
  exists rest, amo_answers (memresps tr) = amo_results (responses tr) ++ rest.
Proof.
  intros s0 is m0 m rq rs R tr. destruct (sys_state p W _ _ _ _ _ _ R) as (a & ST).
  destruct (stok_J p _ _ _ _ _ _ _ _ ST) as [JJ _]. fold tr in JJ.
  pose proof R as (_ & _ & MT). fold tr in MT. destruct (mem_trace_run _ _ _ _ _ _ _ _ MT) as (ex0 & X1 & X2 & X3). cbn [app] in X1, X3.
  set (E := responses tr) in *. set (S := memreqs tr) in *. set (A := accepted tr) in *.
  inversion JJ as [c pd mm A1 E1 Q S1 H F2 PK | c r todo out l pd mm rq1 rs1 A1 E1 Q S1 mb ex qs got xs H WF TR EM SN F3 FM EL OUT F2 PK PE]; subst.
  - rewrite app_nil_r in X1, X3. destruct (hist_amo _ _ _ _ _ _ H) as [_ HA]. destruct (run_sim2 Q S m0 F2) as [_ RS].
    rewrite <- X3, <- X1, <- (rsim_answers _ _ RS), HA, amo_results_app. eauto.
  - destruct (hist_amo _ _ _ _ _ _ H) as [HM HA].
    assert (LQ : length qs = length rq) by (eapply Forall2_len; eauto).
    assert (LX : length xs = length rs) by (eapply Forall2_len; eauto).
    rewrite map_app, app_assoc in F2. apply Forall2_app_inv_l in F2. destruct F2 as (S1 & S2 & F2a & F2b & ES).
    assert (EX : ex0 = S1 /\ rq = S2).
    { assert (L2 : length S2 = length rq).
      { pose proof (Forall2_len _ _ _ _ _ F2b) as Z. rewrite map_length in Z. lia. }
      rewrite X1 in ES. assert (L1 : length ex0 = length S1).
      { apply (f_equal (@length _)) in ES. rewrite !app_length in ES. lia. }
      clear - ES L1. revert S1 L1 ES. induction ex0 as [|x l IH]; intros [|y S1] L1 ES; try discriminate; cbn in *; auto.
      inversion ES. destruct (IH S1) as [-> ->]; auto. }
    destruct EX as [-> ->].
    destruct (run_sim2 (Q ++ map (pair r) ex) S1 m0 F2a) as [_ RS].
    assert (X : map snd (map (pair r) ex) = ex) by (rewrite map_map; apply map_id).
    rewrite map_app, X, mem_run_app, <- HM in RS. cbn [snd] in RS. rewrite SN, X3, app_assoc in RS.
    assert (RS1 : Forall2 rsim (snd (mem_run p m0 (map snd Q)) ++ got) (memresps tr)).
    { apply Forall2_app_inv_l in RS. destruct RS as (Z1 & Z2 & RA & RB & EZ).
      assert (Z1 = memresps tr); [|subst; auto].
      assert (L1 : length Z2 = length rs) by (apply Forall2_len in RB; lia).
      assert (L2 : length Z1 = length (memresps tr)) by (apply (f_equal (@length _)) in EZ; rewrite !app_length in EZ; lia).
      clear - EZ L2. revert Z1 EZ L2. induction (memresps tr) as [|x l IH]; intros [|y Z1] EZ L2; try discriminate; auto. cbn in *. inversion EZ. f_equal. auto. }
    apply rsim_answers in RS1. rewrite <- RS1, amo_answers_app, HA, amo_results_app, <- app_assoc. eauto.
Qed.
End F.

Section F2.
Variable p : params.
Hypothesis W : wf_params p.

(** After an AMO the line is in no way, neither valid nor dirty. *)
Theorem sys_amo_absent : forall s0 is m0 m rq rs A r, sys_run p s0 is m0 m rq rs ->
  length (accepted (trace_of p s0 is)) = length (responses (trace_of p s0 is)) ->
  accepted (trace_of p s0 is) = A ++ [r] -> is_amo (cq_type r) = true ->
  let s := fst (run p s0 is) in
  forall w, w < p_assoc p -> let e := tram s w (a_idx p (cq_addr r)) in
    te_val p e = true \/ te_dty p e <> 0 -> te_tag p e <> a_tag p (cq_addr r).
Proof.
  intros s0 is m0 m rq rs A r R AN EA IA s w Hw e PR.
  destruct (sys_state p W _ _ _ _ _ _ R) as (a & ST). fold s in ST.
  inversion ST as [c0 k CS PI NK A1 A2 A3 A4 EM EQ ES EE | a0 PH NK JA OA EE]; subst.
  { rewrite A1 in EA. destruct A; discriminate. }
  destruct (J_hist p _ _ _ _ _ _ _ _ JA) as (A0 & c & mb & Q & pd & H & PD & CA & C).
  pose proof (hist_length p _ _ _ _ _ _ H) as L. rewrite app_length in L.
  destruct C as [(E & E2 & _) | (r' & ex & qs & todo & out & l & E & _)].
  2:{ rewrite E, app_length in AN. cbn in AN. lia. }
  pose proof (phase_idle p _ _ PH E2) as ID. rewrite <- E, EA in H.
  inversion H as [c1 CS | A1 c1 mm Y1 Q1 r1 H1 WF X1 X2 X3 X4 X5].
  { destruct A; discriminate. }
  apply app_inj_tail in X1. destruct X1; subst A1 r1.
  pose proof (is_amo_wf p r WF IA) as WA.
  destruct (hist_flat p W _ _ _ _ _ _ H1) as (I & _).
  destruct (step_amo p W c1 mm r I WF WA) as (_ & _ & _ & AB). rewrite X2, CA in AB.
  specialize (AB w Hw). unfold present, lval, ltag in AB. rewrite <- (id_t _ _ _ ID) in AB. apply AB. fold e.
  destruct PR as [-> | PR]; auto. destruct (N.eqb_spec (te_dty p e) 0); [contradiction | apply orb_true_r].
Qed.
Theorem sys_amo_others : forall s0 is m0 m rq rs A r r' C y, sys_run p s0 is m0 m rq rs ->
  let tr := trace_of p s0 is in
  accepted tr = A ++ r :: r' :: C -> is_amo (cq_type r) = true ->
  line_of p (cq_addr r) <> line_of p (cq_addr r') ->
  nth_error (responses tr) (S (length A)) = Some y ->
  nth_error (lru_tests p lru_empty (A ++ [r'])) (length A) = Some (cr_test y).
Proof.
  intros s0 is m0 m rq rs A r r' C y R tr E IA NL Y. destruct (sys_tests p W _ _ _ _ _ _ R) as (rest & T). fold tr in T.
  rewrite E in T.
  assert (Y1 : nth_error (lru_tests p lru_empty (A ++ r :: r' :: C)) (S (length A)) = Some (cr_test y)).
  { rewrite T. rewrite nth_error_app1; [rewrite nth_error_map, Y; auto|]. rewrite map_length. apply nth_error_Some. congruence. }
  rewrite <- Y1, !lru_tests_app, !nth_error_app2 by (rewrite lru_tests_len; lia).
  rewrite !lru_tests_len. replace (S (length A) - length A)%nat with 1%nat by lia. rewrite Nat.sub_diag.
  cbn [lru_tests nth_error]. f_equal.
  set (L := lru_run p lru_empty A). clearbody L.
  assert (RW : rw_req r = false) by (apply (drops_rw p r (line_of p (cq_addr r))); right; auto).
  unfold lru_step at 3. rewrite RW, IA. cbn [fst]. unfold lru_step. destruct (rw_req r'); cbn [snd]; [|destruct (is_amo (cq_type r')); auto; destruct (cq_type r' =? T_INV); auto].
  set (l := line_of p (cq_addr r)) in *. set (l' := line_of p (cq_addr r')) in *.
  destruct (in_dec N.eq_dec l' (L (l' mod nblocks p))) as [I|I];
  match goal with |- _ = (if ?d then _ else _) => destruct d as [J|J] end; auto; exfalso.
  - apply J. destruct (N.eqb_spec (l' mod nblocks p) (l mod nblocks p)) as [X|X]; auto. rewrite <- X. apply in_in_remove; auto.
  - apply I. destruct (N.eqb_spec (l' mod nblocks p) (l mod nblocks p)) as [X|X]; auto. apply in_remove in J. rewrite X. apply J.
Qed.

Theorem sys_amo_group : forall s0 is i m0 m rq rs q A r,
  sys_run p s0 (is ++ [i]) m0 m rq rs -> accepted (trace_of p s0 is) = A ++ [r] ->
  o_mreq (output p (fst (run p s0 is)) i) = Some q -> is_amo (cq_type r) = true ->
  exists G wb qa, length A = length G /\ traffic p none lru_empty m0 (A ++ [r]) (G ++ [wb ++ [qa]]) /\
    In q (wb ++ [qa]) /\ (length wb <= 1)%nat /\
    wbs_ok p (pend_run p none A G) (flat_mem p m0 A) wb /\
    (forall b, In b wb -> mq_addr b = line_bytes p * line_of p (cq_addr r)) /\
    (forall k, k * 4 / line_bytes p = line_of p (cq_addr r) -> clears p (pend_run p none A G) wb k = false) /\
    mq_type qa = cq_type r /\ mq_addr qa = cq_addr r.
Proof.
  intros s0 is i m0 m rq rs q A r R EA OQ IA.
  destruct (sys_sent p W _ _ _ _ _ _ _ _ R OQ) as (A' & r' & G & g & EA' & _ & LG & TG & IN).
  rewrite EA in EA'. apply app_inj_tail in EA'. destruct EA'; subst A' r'.
  pose proof TG as TG0. apply traf_snoc in TG; auto. destruct TG as [_ TG]. unfold req_traffic in TG.
  rewrite (drops_rw p r (line_of p (cq_addr r))), IA in TG by (right; auto).
  destruct TG as (wb & qa & -> & T1 & T2 & T3 & T4 & T5 & _ & T7 & _). exists G, wb, qa.
  split; auto. split; auto. split; auto. split; auto.
Qed.
End F2.

(** *** The meaning of "pending" *)
Lemma clears_keep : forall p g P k, clears p P g k = true <-> P k = true /\ forall q, In q g -> in_req p q k = false.
Proof.
  intros p. induction g as [|q g IH]; intros P k; unfold clears in *; cbn [fold_left].
  - split; [intros; split; auto; intros ? [] | tauto].
  - rewrite IH. unfold clear. rewrite andb_true_iff, negb_true_iff. split.
    + intros ((H1 & H2) & H3). split; auto. intros x [<- | I]; auto.
    + intros (H1 & H2). split; [split; auto; apply H2; left; auto | intros; apply H2; right; auto].
Qed.

Theorem pend_meaning : forall p A G k, length A = length G ->
  (pend_run p none A G k = true <->
   exists A1 r A2, A = A1 ++ r :: A2 /\ cq_type r = T_WRITE /\
     word_num (cq_addr r) <= k <= word_num (cq_addr r + req_bytes p r - 1) /\
     forall q, In q (concat (skipn (S (length A1)) G)) -> is_write q = true -> in_req p q k = false).
Proof.
  intros p A. induction A as [|r A IH] using rev_ind; intros G k LE.
  - destruct G; [|discriminate]. cbn. split; [discriminate|]. intros ([|] & ? & ? & E & _); discriminate.
  - destruct G as [|g G _] using rev_ind; [rewrite app_length in LE; cbn in LE; lia|].
    rewrite !app_length in LE. cbn in LE. assert (LG : length A = length G) by lia.
    rewrite pend_snoc by auto.
    assert (MK : mark p (clears p (pend_run p none A G) (writes g)) r k = true <->
       clears p (pend_run p none A G) (writes g) k = true \/
       cq_type r = T_WRITE /\ word_num (cq_addr r) <= k <= word_num (cq_addr r + req_bytes p r - 1)).
    { unfold mark. destruct (N.eqb_spec (cq_type r) T_WRITE) as [T|T]; [|tauto].
      rewrite orb_true_iff, andb_true_iff, !N.leb_le. tauto. }
    rewrite MK, clears_keep, IH by auto. split.
    + intros [((A1 & x & A2 & E & T & K & N) & WR) | (T & K)].
      * exists A1, x, (A2 ++ [r]). split; [rewrite E, <- app_assoc; auto|]. split; auto. split; auto.
        intros q I IW. assert (L1 : (S (length A1) <= length G)%nat) by (rewrite <- LG, E, app_length; cbn; lia).
        rewrite skipn_app, concat_app in I. replace (S (length A1) - length G)%nat with 0%nat in I by lia. cbn [skipn concat] in I.
        rewrite app_nil_r in I. apply in_app_or in I. destruct I as [I | I]; auto. apply WR. apply filter_In. auto.
      * exists A, r, []. split; auto. split; auto. split; auto. intros q I.
        rewrite skipn_all2 in I; [destruct I|]. rewrite app_length. cbn. lia.
    + intros (A1 & x & A2 & E & T & K & N). destruct A2 as [|z A2 _] using rev_ind.
      * apply app_inj_tail in E. destruct E; subst. right. auto.
      * rewrite app_comm_cons, app_assoc in E. apply app_inj_tail in E. destruct E; subst z. left.
        assert (L1 : (S (length A1) <= length G)%nat) by (rewrite <- LG, H, app_length; cbn; lia).
        assert (SK : concat (skipn (S (length A1)) (G ++ [g])) = concat (skipn (S (length A1)) G) ++ g).
        { rewrite skipn_app, concat_app. replace (S (length A1) - length G)%nat with 0%nat by lia. cbn [skipn concat]. rewrite app_nil_r. auto. }
        rewrite SK in N. split.
        -- exists A1, x, A2. split; auto. split; auto. split; auto. intros q I. apply N. apply in_or_app. auto.
        -- intros q I. apply filter_In in I. apply N; [apply in_or_app; right; apply I | apply I].
Qed.
