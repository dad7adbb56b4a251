(** AMOs of several caches on a shared word are executed one at a time (C43). *)
From Coq Require Import Arith NArith List Bool Lia.
From Verif Require Import Bits Params Msg Units Rtl Mem Spec System Tl ParamsProofs RefineInv RefineProofs
  UnitProofs ViewDefs ViewOps ViewProofs SysProofs SysFacts Facts1 Facts2 Facts3 Facts4 Traffic MetaProofs PendProofs TrafProofs
  MemFacts MultiSys MultiProofs MultiFacts MultiMore.
Import ListNotations.
Open Scope N_scope.

Section K.
Variable p : params.
Hypothesis W : wf_params p.

(** *** At the ports of one cache, whatever memory answers *)
Definition namo (q : mreq) : Prop := is_amo (mq_type q) = false.
Definition waits (r : creq) (l : list mreq) (d : N) (AX B : list N) : Prop :=
  if is_amo (cq_type r) then
    (exists xs e, l = xs ++ [e] /\ Forall namo xs /\ is_amo (mq_type e) = true /\ AX = B) \/
    (l = [] /\ AX = B ++ [slice d 0 32])
  else Forall namo l /\ AX = B.

Inductive KI : ast -> list (N * N * N * N) -> list (N * N * N * N) -> list N -> list N -> Prop :=
| K_idle : forall c pd AA AX AR, AX = AR ++ amo_results pd -> KI (mkA c None pd) AA AA AX AR
| K_busy : forall c r todo out l pd AA AQ AX AR,
    AA = AQ ++ amo_msgs todo -> waits r (out ++ todo) l AX (AR ++ amo_results pd) ->
    (cq_type r = T_FLUSH -> Forall namo todo) ->
    KI (mkA c (Some (mkCur r todo out l)) pd) AA AQ AX AR.

Lemma reqs_waits : forall c r, wf_req p r -> amo_msgs (tl_reqs p c r) = amo_wants p [r] /\
  (if is_amo (cq_type r) then exists xs e, tl_reqs p c r = xs ++ [e] /\ Forall namo xs /\ is_amo (mq_type e) = true
   else Forall namo (tl_reqs p c r)).
Proof.
  intros c r WF. unfold amo_wants. cbn [filter].
  assert (EV : Forall namo (wbs p c r)).
  { unfold wbs. destruct (tl_evict p c r); repeat constructor. }
  assert (NM : forall l, Forall namo l -> amo_msgs l = []).
  { induction l as [|q l IH]; intros F; auto. inversion F as [|? ? N1 N2]; subst. unfold amo_msgs. cbn [filter]. rewrite N1. apply IH; auto. }
  destruct (is_amo (cq_type r)) eqn:IA.
  - pose proof (is_amo_wf p r WF IA) as WA. destruct (amo_type p r WA) as (NR & _ & NI & NF & _).
    assert (RQ : tl_reqs p c r = wbs p c r ++ [amo_req p c r]) by (unfold tl_reqs, tl_isamo; rewrite NI, NF, IA; auto).
    rewrite RQ. split.
    + rewrite amo_msgs_app, (NM _ EV). unfold amo_msgs. cbn [filter].
      change (mq_type (amo_req p c r)) with (cq_type r). rewrite IA. cbn [map app]. f_equal. unfold amo_msg, amo_want.
      unfold amo_req. cbn [mq_type mq_opq mq_addr mq_len mq_data]. repeat f_equal.
      * cbn [off_len fst]. apply mk_addr_parts; auto. apply WF.
      * unfold tl_data, tl_isamo. rewrite IA. unfold replicator, rep_sel. auto.
    + exists (wbs p c r), (amo_req p c r). auto.
  - cbn [map]. assert (F : Forall namo (tl_reqs p c r)).
    { unfold tl_reqs. destruct (cq_type r =? T_INV); auto. destruct (cq_type r =? T_FLUSH).
      { apply Forall_forall. intros q IN. destruct (flush_shape p _ _ _ _ IN) as (j & _ & -> & _). reflexivity. }
      unfold tl_isamo. rewrite IA. destruct (tl_hit p c r); auto. apply Forall_app. split; auto. repeat constructor. }
    split; auto.
Qed.

Lemma match_msg : forall r e m, mreq_match r e m -> cq_type r <> T_FLUSH -> amo_msgs [m] = amo_msgs [e].
Proof.
  intros r e m (M1 & M2 & M3 & M4 & M5 & M6) NF. unfold amo_msgs. cbn [filter]. rewrite <- M1.
  destruct (is_amo (mq_type e)); auto. cbn [map]. unfold amo_msg. rewrite M1, M2, M5, (M6 NF). auto.
Qed.
Lemma namo_msgs : forall l, Forall namo l -> amo_msgs l = [].
Proof. induction l as [|q l IH]; intros F; auto. inversion F as [|? ? N1 N2]; subst. unfold amo_msgs. cbn [filter]. rewrite N1. apply IH; auto. Qed.

Lemma KI_recv : forall a AA AQ AX AR x a', KI a AA AQ AX AR -> a_recv a x a' -> KI a' AA AQ (AX ++ amo_answers [x]) AR.
Proof.
  intros a AA AQ AX AR x a' H R. inversion R; subst. inversion H; subst; clear H. apply K_busy; auto.
  unfold amo_answers. cbn [filter].
  match goal with Z : mr_type x = _ |- _ => rewrite Z end.
  match goal with Z : waits _ _ _ _ _ |- _ => revert Z end. unfold waits. destruct (is_amo (cq_type r)).
  - intros [(xs & e & E & F & T & ->) | (E & _)]; [|discriminate].
    destruct xs as [|q xs]; cbn [app] in E; inversion E; subst.
    + rewrite T. cbn [map]. right. destruct out; [|discriminate]. destruct todo; [|discriminate]. auto.
    + inversion F as [|? ? N1 N2]; subst. red in N1. rewrite N1. cbn [map]. rewrite app_nil_r. left. exists xs, e. auto.
  - intros [F ->]. cbn [app] in F. inversion F as [|? ? N1 N2]; subst. red in N1. rewrite N1. cbn [map]. rewrite app_nil_r. auto.
Qed.
Lemma KI_send : forall a AA AQ AX AR m a', KI a AA AQ AX AR -> a_send a m a' -> KI a' AA (AQ ++ amo_msgs [m]) AX AR.
Proof.
  intros a AA AQ AX AR m a' H R. inversion R; subst. inversion H; subst; clear H.
  match goal with Z : mreq_match _ _ _ |- _ => pose proof Z as MM; destruct Z as (M1 & _) end.
  match goal with Z : cq_type r = T_FLUSH -> Forall namo _ |- _ => rename Z into FL end.
  apply K_busy.
  - rewrite <- app_assoc. f_equal. rewrite <- amo_msgs_app. cbn [app].
    destruct (N.eq_dec (cq_type r) T_FLUSH) as [TF|NF].
    + specialize (FL TF). rewrite (namo_msgs _ FL). symmetry. apply namo_msgs.
      inversion FL as [|? ? F1 F2]; subst. constructor; auto. red. rewrite <- M1. auto.
    + change (e :: todo) with ([e] ++ todo). change (m :: todo) with ([m] ++ todo). rewrite !amo_msgs_app. f_equal.
      symmetry. eapply match_msg; eauto.
  - match goal with Z : waits _ _ _ _ _ |- _ => revert Z end. unfold waits. rewrite <- (app_assoc out [m] todo). cbn [app].
    destruct (is_amo (cq_type r)).
    + intros [(xs & q & E & F & T & ->) | (E & _)]; [|destruct out; discriminate]. left.
      assert (EX : exists xs' q', out ++ m :: todo = xs' ++ [q'] /\ Forall namo xs' /\ is_amo (mq_type q') = true).
      { destruct todo as [|t todo] using rev_ind.
        - apply app_inj_tail in E. destruct E; subst. exists xs, m. rewrite <- M1. auto.
        - clear IHtodo. change (e :: todo ++ [t]) with ((e :: todo) ++ [t]) in E. rewrite app_assoc in E. apply app_inj_tail in E.
          destruct E; subst. exists (out ++ m :: todo), q. rewrite <- app_assoc. cbn [app]. split; auto. split; auto.
          apply Forall_app in F. destruct F as [F1 F2]. apply Forall_app. split; auto. inversion F2 as [|? ? F3 F4]; subst.
          constructor; auto. red. rewrite <- M1. auto. }
      destruct EX as (xs' & q' & E1 & E2 & E3). exists xs', q'. auto.
    + intros [F ->]. split; auto. apply Forall_app in F. destruct F as [F1 F2]. apply Forall_app. split; auto.
      inversion F2 as [|? ? F3 F4]; subst. constructor; auto. red. rewrite <- M1. auto.
  - intros TF. specialize (FL TF). inversion FL; auto.
Qed.
Lemma KI_emit : forall a AA AQ AX AR y a', KI a AA AQ AX AR -> a_emit a y a' -> KI a' AA AQ AX (AR ++ amo_results [y]).
Proof.
  intros a AA AQ AX AR y a' H R. inversion R; subst. inversion H; subst; clear H.
  - apply K_idle. change (y :: pd) with ([y] ++ pd). rewrite amo_results_app, app_assoc. auto.
  - apply K_busy; auto. rewrite <- app_assoc, <- amo_results_app. auto.
Qed.
Lemma KI_done : forall a AA AQ AX AR a', KI a AA AQ AX AR -> a_done p a a' -> KI a' AA AQ AX AR.
Proof.
  intros a AA AQ AX AR a' H R. inversion R; subst. inversion H; subst; clear H.
  unfold amo_msgs at 1. cbn [filter map]. rewrite app_nil_r. apply K_idle.
  rewrite amo_results_app, app_assoc. unfold amo_results at 2. cbn [filter].
  destruct (tl_fin_echo p c r l) as (-> & _).
  match goal with Z : waits _ _ _ _ _ |- _ => revert Z end. unfold waits. destruct (is_amo (cq_type r)) eqn:IA.
  - intros [(xs & q & E & _) | (_ & ->)]; [destruct xs; discriminate|]. cbn [map]. f_equal. f_equal.
    unfold tl_fin, tl_isamo. destruct (N.eqb_spec (cq_type r) T_INV) as [E|_]; [rewrite E in IA; discriminate|].
    destruct (N.eqb_spec (cq_type r) T_FLUSH) as [E|_]; [rewrite E in IA; discriminate|]. rewrite IA. auto.
  - intros [_ ->]. cbn [map]. rewrite app_nil_r. auto.
Qed.
Lemma KI_acc : forall a AA AQ AX AR r a', KI a AA AQ AX AR -> a_acc p a r a' -> wf_req p r -> KI a' (AA ++ amo_wants p [r]) AQ AX AR.
Proof.
  intros a AA AQ AX AR r a' H R WF. inversion R; subst. inversion H; subst; clear H.
  destruct (reqs_waits c r WF) as [E F]. apply K_busy.
  - rewrite E. auto.
  - unfold waits. cbn [app]. destruct (is_amo (cq_type r)); auto. destruct F as (xs & e & F1 & F2 & F3). left. exists xs, e. auto.
  - intros TF. rewrite TF in F. exact F.
Qed.

Definition KT (a : ast) (tr : trace) : Prop :=
  KI a (amo_wants p (accepted tr)) (amo_msgs (memreqs tr)) (amo_answers (memresps tr)) (amo_results (responses tr)).
Lemma KT_cycle : forall a tr i o a', KT a tr -> acyc p a i o a' -> (i_req_en i = true -> wf_req p (i_req i)) -> KT a' (tr ++ [(i, o)]).
Proof.
  intros a tr i o a' H (a1 & a2 & a3 & C1 & C2 & C3 & C4) WR. unfold KT in *.
  rewrite accepted_app, responses_app, amo_wants_app, amo_results_app.
  unfold memreqs, memresps. rewrite !flat_map_app. fold (memreqs tr). fold (memresps tr). rewrite amo_msgs_app, amo_answers_app.
  unfold accepted at 2, responses at 2. cbn [flat_map fst snd]. rewrite !app_nil_r.
  set (AA := amo_wants p (accepted tr)) in *. set (AQ := amo_msgs (memreqs tr)) in *. set (AX := amo_answers (memresps tr)) in *.
  set (AR := amo_results (responses tr)) in *. clearbody AA AQ AX AR.
  set (AX1 := AX ++ amo_answers (if i_mresp_en i then [i_mresp i] else [])) in *.
  assert (H1 : KI a1 AA AQ AX1 AR).
  { unfold o_recv, AX1 in *. destruct (i_mresp_en i).
    - eapply KI_recv; eauto.
    - subst. rewrite app_nil_r. auto. }
  assert (H2 : KI a2 AA (AQ ++ amo_msgs (opt_list (o_mreq o))) AX1 (AR ++ amo_results (opt_list (o_resp o)))).
  { unfold o_send in C2. destruct (o_mreq o), (o_resp o); cbn [opt_list]; try contradiction.
    - unfold amo_results. cbn [filter map]. rewrite app_nil_r. eapply KI_send; eauto.
    - unfold amo_msgs. cbn [filter map]. rewrite app_nil_r. eapply KI_emit; eauto.
    - subst. unfold amo_results, amo_msgs. cbn [filter map]. rewrite !app_nil_r. auto. }
  assert (H3 : KI a3 AA (AQ ++ amo_msgs (opt_list (o_mreq o))) AX1 (AR ++ amo_results (opt_list (o_resp o)))).
  { destruct C3 as [C3 | ->]; auto. eapply KI_done; eauto. }
  unfold o_acc in C4. destruct (i_req_en i).
  - eapply KI_acc; eauto.
  - subst. unfold amo_wants. cbn [filter map]. rewrite app_nil_r. auto.
Qed.
Lemma KT_run : forall tr c a, aruns p (mkA c None []) tr a -> client_ok p tr -> KT a tr.
Proof.
  induction tr as [|[i o] tr IH] using rev_ind; intros c a H CL.
  - inversion H; subst. apply K_idle. auto.
  - apply aruns_snoc in H. destruct H as (a1 & H1 & H2). apply Forall_app in CL. destruct CL as [CL1 CL2].
    eapply KT_cycle; eauto. inversion CL2 as [|? ? X _]; subst. intros E. apply (X E).
Qed.
Lemma KT_facts : forall a tr, KT a tr -> prefix (amo_msgs (memreqs tr)) (amo_wants p (accepted tr)) /\
  prefix (amo_results (responses tr)) (amo_answers (memresps tr)).
Proof.
  intros a tr H. unfold KT in H. inversion H as [c pd AA AX AR E | c r todo out l pd AA AQ AX AR E WT _]; subst.
  - split; [exists []; rewrite app_nil_r | rewrite E; eexists]; eauto.
  - split; [eexists; eauto|]. unfold waits in WT. unfold prefix. destruct (is_amo (cq_type r)).
    + destruct WT as [(xs & e & _ & _ & _ & ->) | (_ & ->)]; [eauto|]. rewrite <- app_assoc. eauto.
    + destruct WT as [_ ->]. eauto.
Qed.
End K.

(** *** Bytes *)
Lemma rd_wr_same : forall n m a v, rd_bytes (wr_bytes m a n v) a n = trunc (8 * N.of_nat n) v.
Proof.
  intros n m a v. rewrite (rd_slice n _ a v 0).
  - unfold slice. rewrite N.mul_0_r, N.shiftr_0_r, N.sub_0_r. auto.
  - intros k K. unfold wr_bytes. destruct (N.leb_spec a (a + k)); try lia. destruct (N.ltb_spec (a + k) (a + N.of_nat n)); try lia.
    cbn [andb]. replace (a + k - a) with k by lia. rewrite N.add_0_l. unfold gb. apply trunc_small. apply gb_lt.
Qed.
Lemma rd_wr_other : forall m a b v, a mod 4 = 0 -> b mod 4 = 0 -> a <> b -> rd_bytes (wr_bytes m b 4 v) a 4 = rd_bytes m a 4.
Proof.
  intros m a b v A B NE. apply rd_ext. intros k K. change (N.of_nat 4) with 4 in K. f_equal. unfold wr_bytes. change (N.of_nat 4) with 4.
  pose proof (N.div_mod' a 4) as DA. pose proof (N.div_mod' b 4) as DB. rewrite A in DA. rewrite B in DB.
  set (qa := a / 4) in *. set (qb := b / 4) in *. clearbody qa qb.
  destruct (N.leb_spec b (a + k)); auto. destruct (N.ltb_spec (a + k) (b + 4)); auto. exfalso. lia.
Qed.
(** *** List plumbing *)
Lemma prefix_refl : forall A (l : list A), prefix l l.
Proof. intros. exists []. rewrite app_nil_r. auto. Qed.
Lemma prefix_trans : forall A (l1 l2 l3 : list A), prefix l1 l2 -> prefix l2 l3 -> prefix l1 l3.
Proof. intros A l1 l2 l3 [a ->] [b ->]. rewrite <- app_assoc. eexists; eauto. Qed.
Lemma prefix_app : forall A (l1 l2 l3 : list A), prefix l1 l2 -> prefix l1 (l2 ++ l3).
Proof. intros A l1 l2 l3 [a ->]. rewrite <- app_assoc. eexists; eauto. Qed.
Lemma prefix_len : forall A (l1 l2 : list A), prefix l1 l2 -> (length l1 <= length l2)%nat.
Proof. intros A l1 l2 [a ->]. rewrite app_length. lia. Qed.
Lemma prefix_two : forall A (l1 l2 l : list A), prefix l1 l -> prefix l2 l -> (length l1 <= length l2)%nat -> prefix l1 l2.
Proof. intros A l1 l2 l [a ->] [b E] L. destruct (app_prefix _ l1 a l2 b E L) as [e ->]. exists e. auto. Qed.
Lemma prefix_pairs : forall A B (l l' : list (A * B)), prefix (map fst l) (map fst l') -> prefix (map snd l) (map snd l') -> prefix l l'.
Proof.
  induction l as [|[a b] l IH]; intros [|[a' b'] l'] [x X] [y Y]; cbn in *; try discriminate.
  - exists []. auto.
  - exists ((a', b') :: l'). auto.
  - inversion X; subst. inversion Y; subst. destruct (IH l') as [z ->]; [eexists; eauto | eexists; eauto |]. exists z. auto.
Qed.
Lemma by_cache_app : forall A i (L L' : list (nat * A)), by_cache i (L ++ L') = by_cache i L ++ by_cache i L'.
Proof. intros. unfold by_cache. rewrite filter_app, map_app. auto. Qed.
Lemma by_cache_one : forall A i j (x : A), by_cache i [(j, x)] = if Nat.eqb j i then [x] else [].
Proof. intros. unfold by_cache. cbn [filter fst]. destruct (Nat.eqb j i); auto. Qed.
Lemma at_word_app : forall a L L', at_word a (L ++ L') = at_word a L ++ at_word a L'.
Proof. intros. apply filter_app. Qed.
Lemma amo_seq_app : forall L v v' v'' L', amo_seq v L v' -> amo_seq v' L' v'' -> amo_seq v (L ++ L') v''.
Proof.
  induction L as [|[r d] L IH]; intros v v' v'' L' H H'; cbn [amo_seq app] in *; [subst; auto|].
  destruct H as [H1 H2]. split; auto. eapply IH; eauto.
Qed.

Lemma done_shape : forall A Y, (length Y <= length A)%nat ->
  (forall k r y, nth_error A k = Some r -> nth_error Y k = Some y -> cr_type y = cq_type r) ->
  let D := map (fun ry : creq * cresp => (fst ry, cr_data (snd ry))) (filter (fun ry => is_amor (fst ry)) (combine A Y)) in
  prefix (map fst D) (filter is_amor A) /\ map snd D = amo_results Y.
Proof.
  induction A as [|r A IH]; intros [|y Y] L E; cbn [combine filter map].
  - split; [exists []|]; auto.
  - cbn in L. lia.
  - split; [|auto]. cbn [prefix]. exists (filter is_amor (r :: A)). auto.
  - destruct (IH Y) as [H1 H2]; [cbn in L; lia | intros k; apply (E (S k)) |]. cbn [fst].
    specialize (E O r y eq_refl eq_refl). unfold amo_results. cbn [filter]. rewrite E. change (is_amo (cq_type r)) with (is_amor r). destruct (is_amor r); auto.
    cbn [map fst snd]. split; [destruct H1 as [z ->]; exists z; auto | f_equal; auto].
Qed.

Section G0.
Variable p : params.
Hypothesis W : wf_params p.

(** messages that are not AMOs change only words the cache has written *)
Definition nobody : creq := mkCReq T_READ 0 0 0 0.
Lemma exec_traffic_na : forall P L M r g, wf_req p r -> req_traffic p P L M r g ->
  Forall (fun q => is_amo (mq_type q) = false -> benign p P nobody q) g.
Proof.
  intros P L M r g WF T. unfold req_traffic in T.
  assert (WB : forall wb, wbs_ok p P M wb -> Forall (fun q => is_amo (mq_type q) = false -> benign p P nobody q) wb).
  { intros wb H. pose proof (exec_wbs p W M wb P nobody H) as X. eapply Forall_impl; [|exact X]. auto. }
  destruct (rw_req r) eqn:RW.
  { destruct (in_dec _ _ _); [subst; constructor|].
    destruct T as (wb & q & -> & WB' & _ & _ & QT & _). apply Forall_app. split; [eauto|].
    constructor; auto. intros _ x X. left. intros m. unfold mem_exec. rewrite QT. auto. }
  destruct (is_amo (cq_type r)) eqn:IA.
  { destruct T as (wb & q & -> & WB' & _ & _ & _ & QT & _). apply Forall_app. split; [eauto|].
    constructor; auto. intros Z. congruence. }
  destruct (cq_type r =? T_FLUSH).
  - destruct T as [T _]. eauto.
  - subst. constructor.
Qed.

End G0.
